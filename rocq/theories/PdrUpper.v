(** How many questions PDR asks at most. *)
From Coq Require Import Permutation.
From Verif Require Import Base Formulas FormulaLogic Aig Fsts Solvers Ic3 Pdr Spec SpecAig SpecFsts SpecAlg Tac Plain
  FormulasFacts LogicFacts AigFacts SimFacts AigThms FstsFacts FstsSem TagFacts FstsThms BmcThms ConeThms StateFacts
  Ic3Core QueryFacts Ic3Thms PdrCore PdrQuery PdrSteps PdrThms CallBound FuelFacts CallUpper PdrCalls.
Open Scope nat_scope.

(** All counts together. *)
Definition all_calls (x : SatCallStats) : nat :=
  calls_get_bad_cube x + calls_is_blocked x + calls_do_not_extract_model x + calls_no_ind x + calls_extract_model x.

Lemma all_calls_step key x : all_calls (count_call key x) = S (all_calls x).
Proof. destruct x as [n1 n2 n3 n4 n5], key as [| |[]]; unfold all_calls; cbn; lia. Qed.

Definition all_cubes (V : list N) : list Cube := map cube_new (choices V).

Lemma cube_new_perm l l' : Permutation l l' -> cube_new l = cube_new l'.
Proof. intros P. unfold cube_new. f_equal. apply sortN_eq_iff; auto. Qed.

Lemma all_cubes_in V ls : once V ls -> In (cube_new ls) (all_cubes V).
Proof.
  intros H. destruct (choices_once V ls H) as (p & Hp & P). rewrite (cube_new_perm ls p P). apply in_map. auto.
Qed.

Lemma once_new V ls : once V ls -> once V (cube_lits (cube_new ls)).
Proof. intros H. eapply once_perm; [symmetry; apply (sort_perm N.leb ls)|auto]. Qed.

Lemma once_filter V f ls : once V ls -> once V (filter f ls).
Proof.
  intros (Hn & Hi). split.
  - clear Hi. induction ls as [|l ls IH]; cbn [filter map] in *; [constructor|]. inversion Hn as [|? ? H1 H2]; subst.
    destruct (f l); cbn [map]; auto. constructor; auto. intros X. apply H1.
    apply in_map_iff in X. destruct X as (y & Ey & Hy). apply filter_In in Hy. apply in_map_iff. exists y. tauto.
  - intros v Hv. apply Hi. apply in_map_iff in Hv. destruct Hv as (y & Ey & Hy). apply filter_In in Hy.
    apply in_map_iff. exists y. tauto.
Qed.

Lemma once_length V ls : once V ls -> length ls <= length V.
Proof. intros (Hn & Hi). apply (Nat.le_trans _ (length (map lit_var ls))); [rewrite map_length; auto|apply NoDup_incl_length; auto]. Qed.

(** The cubes of one frame. *)
Definition clean (W : list Cube) (cubes : list Cube) : Prop := NoDup cubes /\ incl cubes W.
Definition tidy (W : list Cube) (f : list (list Cube)) : Prop := Forall (clean W) f.

Lemma clean_length W cubes : clean W cubes -> length cubes <= length W.
Proof. intros (H1 & H2). apply NoDup_incl_length; auto. Qed.

Lemma remove_clean W q : forall fuel cubes i r, clean W cubes -> remove_subsumed fuel q cubes i = Ok r -> clean W r.
Proof.
  induction fuel as [|fuel IH]; intros cubes i r Hc; cbn [remove_subsumed]; destruct (Nat.ltb_spec i (length cubes)); try discriminate.
  1,3: intros X; injection X as <-; exact Hc.
  destruct (indexn cubes i) as [x| |]; cbn [bind]; try discriminate. destruct (subsumes q x).
  - destruct (swap_remove_ok cubes i H) as (y & l & E & P). rewrite E. cbn [bind]. apply IH. destruct Hc as (H1 & H2). split.
    + apply (Permutation_NoDup P) in H1. inversion H1; auto.
    + intros z Hz. apply H2. apply (Permutation_in z (Permutation_sym P)). right. auto.
  - apply IH. auto.
Qed.

Lemma tidy_index W f d cubes : tidy W f -> indexn f d = Ok cubes -> clean W cubes.
Proof. intros H E. apply indexn_in in E. unfold tidy in H. rewrite Forall_forall in H. auto. Qed.

Lemma tidy_set W f d cubes : tidy W f -> clean W cubes -> tidy W (set_nth f d cubes).
Proof.
  intros H Hc. apply Forall_forall. intros x Hx. apply in_set_nth in Hx. destruct Hx as [Hx| ->]; auto.
  unfold tidy in H. rewrite Forall_forall in H. auto.
Qed.

Section Spent.
Variables (b : build) (R : Random) (SS : StatefulSolver) (s : FSTS).
Variable V : list N.
Hypothesis HR : random_ok R.
Hypothesis Hex : forall asg q, extract_state_from_assignment b s asg = Ok q -> once V (cube_lits q).
Notation St := (PdrState SS).
Notation W := (all_cubes V).

Definition total_calls (st : St) : nat := all_calls (pdr_stats st).

(** At most [n] questions, and frames as clean and as many as before. *)
Definition spent (n : nat) (st st' : St) : Prop :=
  total_calls st' <= total_calls st + n /\ (tidy W (pdr_f st) -> tidy W (pdr_f st')) /\
  length (pdr_f st') = length (pdr_f st).

Lemma spent_trans n m st st1 st2 : spent n st st1 -> spent m st1 st2 -> spent (n + m) st st2.
Proof. intros (H1 & H2 & H3) (H4 & H5 & H6). split; [lia|]. split; [auto|lia]. Qed.

Lemma spent_le n m st st' : n <= m -> spent n st st' -> spent m st st'.
Proof. intros H (H1 & H2). split; [lia|auto]. Qed.

Lemma spent_same st st' : pdr_stats st' = pdr_stats st -> pdr_f st' = pdr_f st -> spent 0 st st'.
Proof. intros H1 H2. unfold spent, total_calls. rewrite H1, H2. split; [lia|auto]. Qed.

Lemma spent_one key st st' : pdr_stats st' = count_call key (pdr_stats st) -> pdr_f st' = pdr_f st -> spent 1 st st'.
Proof. intros H1 H2. unfold spent, total_calls. rewrite H1, H2, all_calls_step. split; [lia|auto]. Qed.

Lemma bad_spent st o st' : z_get_bad_cube b SS s st = Ok (o, st') ->
  spent 1 st st' /\ (forall q, o = Some q -> once V (cube_lits q)).
Proof.
  unfold z_get_bad_cube. repeat step_ok; intros X; try discriminate; injection X as <- <-.
  all: split; [apply (spent_one K_get_bad_cube); reflexivity|]; intros q0 Hq; try discriminate; injection Hq as <-.
  - apply once_new, once_filter. eauto.
  - eauto.
Qed.

Lemma blocked_spent t st r st' : is_blocked SS t st = Ok (r, st') -> spent 1 st st'.
Proof.
  unfold is_blocked, z_is_blocked. destruct (t_frame t); try discriminate. repeat step_ok.
  all: intros X; try discriminate; injection X as _ <-.
  all: first [apply (spent_one K_is_blocked); reflexivity|eapply spent_le; [|apply spent_same; reflexivity]; lia].
Qed.

Lemma relative_spent t p st r st' : z_solve_relative b SS s t p st = Ok (r, st') ->
  spent 1 st st' /\ (r = t \/ t_frame r = FNull /\ once V (cube_lits (t_cube r))).
Proof.
  unfold z_solve_relative. destruct (t_frame t) eqn:Et; try discriminate. destruct p; repeat step_ok.
  all: intros X; try discriminate; injection X as <- <-; (split; [eapply spent_one; reflexivity|auto]).
  all: right; split; auto; cbn [t_cube].
  all: try (apply once_new; split; [constructor|intros x []]).
  - apply once_new, once_filter. eauto.
  - eauto.
Qed.

Lemma generalize_loop_spent fr : forall fuel ls j st r st', once V ls ->
  pdr_generalize_loop b SS s fuel fr ls j st = Ok (r, st') -> spent (length ls - j) st st' /\ once V r.
Proof.
  induction fuel as [|fuel IH]; intros ls j st r st' Ho; cbn [pdr_generalize_loop];
    destruct (j <? length ls) eqn:E; try discriminate.
  1,3: intros X; injection X as <- <-; split; auto; eapply spent_le; [|apply spent_same; reflexivity]; lia.
  apply Nat.ltb_lt in E. destruct (swap_remove_ok ls j E) as (x & l & Ex & P). rewrite Ex. cbn [bind]. cbv zeta.
  assert (H : forall dr st1, (if is_cube_initial s (t_cube (mkTCube (cube_new l) fr)) then Ok (false, st)
      else '(check, st0) <- z_solve_relative b SS s (mkTCube (cube_new l) fr) DoNotExtractModel st;;
           Ok (is_solve_relative_un_sat check, st0)) = Ok (dr, st1) -> spent 1 st st1).
  { intros dr st1. destruct (is_cube_initial _ _).
    - intros X. injection X as _ <-. eapply spent_le; [|apply spent_same; reflexivity]. lia.
    - destruct (z_solve_relative _ _ _ _ _ _) as [(ch & st0)| |] eqn:E0; cbn [bind]; try discriminate.
      intros X. injection X as _ <-. apply relative_spent in E0. apply E0. }
  match goal with |- context [bind ?m _] => destruct m as [(dr & st1)| |] eqn:E1; cbn [bind]; try discriminate end.
  clear E1. specialize (H _ _ eq_refl). rename H into H1.
  pose proof (Permutation_length P) as HL. cbn [length] in HL. destruct dr.
  - intros X. apply IH in X; [|apply (once_tail V x), (once_perm V ls); auto].
    destruct X as (X1 & X2). split; auto. eapply spent_le; [|eapply spent_trans; [exact H1|exact X1]]. lia.
  - assert (HL' : length (l ++ [x]) = length ls) by (rewrite app_length; cbn [length]; lia).
    destruct (swap_last_ok (l ++ [x]) j) as (l' & El & P'); [lia|]. rewrite El. cbn [bind].
    pose proof (Permutation_length P') as HL''.
    intros X. apply IH in X.
    + destruct X as (X1 & X2). split; auto. eapply spent_le; [|eapply spent_trans; [exact H1|exact X1]]. lia.
    + apply (once_perm V ls); auto. rewrite P, <- P'. apply Permutation_cons_append.
Qed.

Lemma generalize_spent t st r st' : once V (cube_lits (t_cube t)) -> pdr_generalize b R SS s t st = Ok (r, st') ->
  spent (length V) st st' /\ t_frame r = t_frame t /\ In (t_cube r) W.
Proof.
  intros Ho. unfold pdr_generalize, cube_iter. cbv zeta.
  assert (P : Permutation (R (pdr_draws st) Literal (cube_lits (t_cube t))) (cube_lits (t_cube t))) by apply HR.
  match goal with |- context [bind ?m _] => destruct m as [(l & st1)| |] eqn:E1; cbn [bind]; try discriminate end.
  intros X. injection X as <- <-. cbn [t_frame t_cube].
  assert (Ho' : once V (R (pdr_draws st) Literal (cube_lits (t_cube t)))) by (eapply once_perm; [symmetry; exact P|auto]).
  apply generalize_loop_spent in E1; auto. destruct E1 as (E1 & E2).
  split; [|split; auto; apply all_cubes_in; auto].
  apply once_length in Ho'. eapply spent_le; [|eapply spent_trans; [apply (spent_same st); reflexivity|exact E1]]. lia.
Qed.

Lemma push_forward_spent bound : forall fuel z n st r st', t_frame z = FOk n ->
  push_forward b SS s fuel bound z n st = Ok (r, st') ->
  spent fuel st st' /\ t_cube r = t_cube z /\ exists m, t_frame r = FOk m /\ n <= m.
Proof.
  induction fuel as [|fuel IH]; intros z n st r st' Hz; cbn [push_forward]; destruct (n <? bound); try discriminate.
  1,3: intros X; injection X as <- <-; split; [|split; eauto]; eapply spent_le; [|apply spent_same; reflexivity]; lia.
  unfold tcube_next. rewrite Hz. cbn [bind].
  destruct (z_solve_relative _ _ _ _ _ _) as [(t & st0)| |] eqn:E; cbn [bind]; try discriminate. apply relative_spent in E.
  destruct E as (E1 & [->|(E2 & _)]).
  - unfold is_solve_relative_un_sat. cbn [t_frame frame_eqb negb].
    intros X. apply IH in X; [|reflexivity]. destruct X as (X1 & X2 & m & X3 & X4). cbn [t_cube] in X2.
    split; [eapply (spent_trans 1 fuel); eauto|]. split; auto. exists m. split; auto. lia.
  - rewrite unsat_frame, E2. cbn [frame_eqb negb]. intros X. injection X as <- <-.
    split; [eapply spent_le; [|exact E1]; lia|]. split; eauto.
Qed.

Lemma fold_unchanged {A} (f : St -> A -> res St) :
  (forall st a st', f st a = Ok st' -> pdr_stats st' = pdr_stats st /\ pdr_f st' = pdr_f st) ->
  forall l st st', foldM f l st = Ok st' -> pdr_stats st' = pdr_stats st /\ pdr_f st' = pdr_f st.
Proof.
  intros H. induction l as [|a l IH]; intros st st'; cbn [foldM].
  - intros X. injection X as <-. auto.
  - destruct (f st a) as [x| |] eqn:E; cbn [bind]; try discriminate. intros X. apply IH in X. apply H in E.
    destruct X, E. split; congruence.
Qed.

Lemma add_to_solvers_unchanged f st i st' : add_to_solvers SS f st i = Ok st' ->
  pdr_stats st' = pdr_stats st /\ pdr_f st' = pdr_f st.
Proof. unfold add_to_solvers. repeat step_ok. intros X. injection X as <-. auto. Qed.

Lemma block_in_unchanged t st st' : z_block_cube_in_solver b SS t st = Ok st' ->
  pdr_stats st' = pdr_stats st /\ pdr_f st' = pdr_f st.
Proof.
  unfold z_block_cube_in_solver. step_ok. destruct (t_frame t); try discriminate.
  - apply fold_unchanged. intros. eapply add_to_solvers_unchanged; eauto.
  - step_ok. apply fold_unchanged. intros. eapply add_to_solvers_unchanged; eauto.
Qed.

Lemma remove_frames_tidy q : forall ds f f',
  foldM (fun f d => cubes <- indexn f d ;; cubes <- remove_subsumed (length cubes) q cubes 0 ;;
                    Ok (set_nth f d cubes)) ds f = Ok f' ->
  length f' = length f /\ (tidy W f -> tidy W f') /\
  (forall d cubes, In d ds -> indexn f' d = Ok cubes -> ~ In q cubes).
Proof.
  induction ds as [|d ds IH]; intros f f'; cbn [foldM].
  - intros X. injection X as <-. split; auto.
  - destruct (indexn f d) as [cubes| |] eqn:E; cbn [bind]; try discriminate.
    pose proof (remove_subsumed_ok q (length cubes) cubes 0 ltac:(lia) ltac:(intros x [])) as (r & Er & Hr & _).
    rewrite Er. cbn [bind]. intros X.
    pose proof X as X'. apply IH in X'. destruct X' as (H1 & H2 & H3). rewrite set_nth_length in H1. split; auto. split.
    + intros Ht. apply H2. apply tidy_set; auto. eapply remove_clean; [|exact Er]. eapply tidy_index; eauto.
    + intros d' cu [<-|Hd] Ec; [|eauto].
      assert (K : forall ds g g', foldM (fun f d => cubes <- indexn f d ;; cubes <- remove_subsumed (length cubes) q cubes 0 ;;
                    Ok (set_nth f d cubes)) ds g = Ok g' -> d < length g -> ~ In q (nth d g []) -> ~ In q (nth d g' [])).
      { clear. induction ds as [|e ds IH]; intros g g'; cbn [foldM].
        - intros X. injection X as <-. auto.
        - destruct (indexn g e) as [cubes| |] eqn:E; cbn [bind]; try discriminate.
          pose proof (remove_subsumed_ok q (length cubes) cubes 0 ltac:(lia) ltac:(intros x [])) as (r & Er & Hr & _).
          rewrite Er. cbn [bind]. intros X Hd Hq. apply IH in X; auto; [rewrite set_nth_length; auto|].
          assert (He : e < length g).
          { unfold indexn in E. destruct (nth_error g e) eqn:En; cbn [unwrap] in E; try discriminate.
            apply nth_error_Some. congruence. }
          rewrite nth_set_nth by auto. destruct (Nat.eqb_spec d e); auto.
          intros Hin. apply Hr in Hin. rewrite subsumes_refl in Hin. destruct Hin; discriminate. }
      assert (Hd : d < length f).
      { unfold indexn in E. destruct (nth_error f d) eqn:En; cbn [unwrap] in E; try discriminate.
        apply nth_error_Some. congruence. }
      rewrite (indexn_nth _ _ []) in Ec by lia. injection Ec as <-.
      apply (K _ _ _ X); [rewrite set_nth_length; auto|]. rewrite nth_set_nth by auto. rewrite Nat.eqb_refl.
      intros Hin. apply Hr in Hin. rewrite subsumes_refl in Hin. destruct Hin; discriminate.
Qed.

Lemma add_blocked_spent t n st st' : t_frame t = FOk n -> 1 <= n -> In (t_cube t) W ->
  add_blocked_cube b SS t st = Ok st' -> spent 0 st st'.
Proof.
  intros Ht Hn1 Hc. unfold add_blocked_cube. rewrite Ht. unfold pdr_depth.
  destruct (nat_sub (length (pdr_f st)) 2) as [D| |]; cbn [bind]; try discriminate.
  match goal with |- context [bind ?m _] => destruct m as [f| |] eqn:E; cbn [bind]; try discriminate end.
  destruct (indexn f (Nat.min n (D + 1))) as [cubes| |] eqn:Ec; cbn [bind]; try discriminate.
  intros X. apply block_in_unchanged in X. destruct X as (X1 & X2). cbn [with_f pdr_stats pdr_f] in X1, X2.
  apply remove_frames_tidy in E. destruct E as (E1 & E2 & E3).
  unfold spent, total_calls. rewrite X1, X2, set_nth_length. split; [lia|]. split; auto.
  intros Hti. apply E2 in Hti. apply tidy_set; auto. pose proof (tidy_index _ _ _ _ Hti Ec) as (C1 & C2). split.
  - apply (Permutation_NoDup (Permutation_cons_append cubes (t_cube t))). constructor; auto.
    apply (E3 (Nat.min n (D + 1))); auto. apply in_seq. lia.
  - intros x Hx. apply in_app_iff in Hx. destruct Hx as [Hx|[<-|[]]]; auto.
Qed.

Lemma propagate_cubes_spent k : forall fuel i st st', tidy W (pdr_f st) ->
  propagate_cubes b SS s fuel k i st = Ok st' -> spent fuel st st'.
Proof.
  induction fuel as [|fuel IH]; intros i st st' Hti; cbn [propagate_cubes];
    destruct (indexn (pdr_f st) k) as [cubes| |] eqn:Ec; cbn [bind]; try discriminate; destruct (i <? length cubes); try discriminate.
  1,3: intros X; injection X as <-; eapply spent_le; [|apply spent_same; reflexivity]; lia.
  destruct (indexn cubes i) as [q| |] eqn:Eq; cbn [bind]; try discriminate.
  destruct (z_solve_relative _ _ _ _ _ _) as [(t & st0)| |] eqn:E; cbn [bind]; try discriminate. apply relative_spent in E.
  destruct E as (E1 & E2). pose proof (proj1 (proj2 E1) Hti) as Hti0. destruct E2 as [->|(E2 & _)].
  - unfold is_solve_relative_un_sat. cbn [t_frame frame_eqb negb].
    destruct (add_blocked_cube _ _ _ _) as [st1| |] eqn:Ea; cbn [bind]; try discriminate.
    apply (add_blocked_spent _ (k + 1)) in Ea; [|reflexivity|lia|].
    + intros X. apply IH in X; [|apply Ea, Hti0].
      eapply (spent_trans 1 fuel); [eapply (spent_trans 1 0); eauto|auto].
    + cbn [t_cube]. apply (proj2 (tidy_index _ _ _ _ Hti Ec)). eapply indexn_in; eauto.
  - rewrite unsat_frame, E2. cbn [frame_eqb negb]. intros X. apply IH in X; auto.
    eapply (spent_trans 1 fuel); eauto.
Qed.

Lemma propagate_frames_spent : forall ks st r st', tidy W (pdr_f st) ->
  Pdr.propagate_frames b SS s ks st = Ok (r, st') -> spent (length ks * length W) st st'.
Proof.
  induction ks as [|k ks IH]; intros st r st' Hti; cbn [Pdr.propagate_frames].
  - intros X. injection X as <- <-. apply spent_same; reflexivity.
  - destruct (indexn (pdr_f st) k) as [cubes| |] eqn:Ec; cbn [bind]; try discriminate.
    destruct (propagate_cubes _ _ _ _ _ _ _) as [st1| |] eqn:E1; cbn [bind]; try discriminate.
    apply propagate_cubes_spent in E1; auto.
    pose proof (clean_length _ _ (tidy_index _ _ _ _ Hti Ec)) as HL.
    destruct (indexn (pdr_f st1) k) as [cubes1| |]; cbn [bind]; try discriminate. destruct cubes1.
    + intros X. injection X as <- <-. eapply spent_le; [|exact E1]. cbn [length Nat.mul]. lia.
    + intros X. apply IH in X; [|apply E1, Hti]. eapply spent_le; [|eapply spent_trans; [exact E1|exact X]].
      cbn [length Nat.mul]. lia.
Qed.

(** Every cube of the queue has every variable at most once. *)
Definition queue_once (q : Queue TCube) : Prop := Forall (fun e => once V (cube_lits (t_cube (fst e)))) q.

Lemma queue_once_push q t n : queue_once q -> once V (cube_lits (t_cube t)) -> queue_once (queue_push tcube_eqb q t n).
Proof.
  intros Hq Ht. unfold queue_push. destruct (existsb _ q).
  - apply Forall_forall. intros e He. apply in_map_iff in He. destruct He as (a & <- & Ha).
    unfold queue_once in Hq. rewrite Forall_forall in Hq. destruct (tcube_eqb t (fst a)); cbn [fst]; auto.
  - apply Forall_app. split; auto.
Qed.

Lemma rec_block_spent D : forall fuel q st r st', queue_once q -> length (pdr_f st) = D + 2 ->
  rec_block_loop b R SS s fuel q st = Ok (r, st') -> spent (fuel * (length V + D + 2)) st st'.
Proof.
  induction fuel as [|fuel IH]; intros q st r st' Hq HD; cbn [rec_block_loop]; destruct q as [|e0 q0]; try discriminate.
  1,2: intros X; injection X as <- <-; eapply spent_le; [|apply spent_same; reflexivity]; lia.
  set (q1 := e0 :: q0) in *. assert (Hne : q1 <> []) by discriminate. cbv zeta.
  destruct (queue_pop_spec (R (pdr_draws st)) q1 (fun B l => HR (pdr_draws st) B l) Hne) as ((t & pri) & q & Epop & P & _).
  rewrite Epop. cbn [unwrap bind].
  assert (Hq' : queue_once ((t, pri) :: q)) by (unfold queue_once in *; rewrite <- P; auto).
  inversion Hq' as [|? ? Ht Hrest]; subst. cbn [fst] in Ht. clear Hq' Hq P Epop Hne q1 e0 q0.
  set (st0 := with_draws SS st _).
  assert (H0 : spent 0 st st0) by (apply spent_same; reflexivity).
  assert (HD0 : length (pdr_f st0) = D + 2) by exact HD. clearbody st0.
  assert (Hfin : forall n st1, n <= length V + D + 2 -> spent n st0 st1 -> forall q r st',
    queue_once q -> rec_block_loop b R SS s fuel q st1 = Ok (r, st') -> spent (S fuel * (length V + D + 2)) st st').
  { intros n st1 Hle H1 q' r' st'' Hq' X. apply (IH q') in X; auto; [|destruct H1 as (_ & _ & H1); congruence].
    eapply spent_le; [|eapply spent_trans; [exact H0|eapply spent_trans; [exact H1|exact X]]]. lia. }
  destruct (t_frame t) as [| |[|n]] eqn:Et; try discriminate.
  { intros X. injection X as <- <-. eapply spent_le; [|exact H0]. lia. }
  destruct (is_blocked SS t st0) as [(bl & st1)| |] eqn:E1; cbn [bind]; try discriminate. apply blocked_spent in E1.
  destruct bl; [eapply Hfin; [|exact E1|exact Hrest]; lia|].
  destruct (debug_assert b _); cbn [bind]; try discriminate.
  destruct (z_solve_relative b SS s t ExtractModel st1) as [(z & st2)| |] eqn:E2; cbn [bind]; try discriminate.
  apply relative_spent in E2. destruct E2 as (E2 & Hz). pose proof (spent_trans _ _ _ _ _ E1 E2) as E12.
  destruct Hz as [->|(Hnull & Hz)].
  - rewrite unsat_frame, Et. cbn [frame_eqb negb].
    destruct (pdr_generalize b R SS s t st2) as [(z & st3)| |] eqn:E3; cbn [bind]; try discriminate.
    apply generalize_spent in E3; auto. destruct E3 as (E3 & Hzf & Hzc). rewrite Hzf, Et.
    unfold pdr_depth, nat_sub at 1.
    assert (HD3 : length (pdr_f st3) = D + 2).
    { destruct E12 as (_ & _ & X1). destruct E3 as (_ & _ & X2). congruence. }
    rewrite HD3. replace (2 <=? D + 2) with true by (symmetry; apply Nat.leb_le; lia). cbn [bind].
    replace (D + 2 - 2) with D by lia.
    destruct (nat_sub D 1) as [bound| |]; cbn [bind]; try discriminate.
    destruct (push_forward b SS s D bound z (S n) st3) as [(z4 & st4)| |] eqn:E4; cbn [bind]; try discriminate.
    apply push_forward_spent in E4; [|congruence]. destruct E4 as (E4 & Hc4 & m & Hm & Hnm).
    destruct (add_blocked_cube b SS z4 st4) as [st5| |] eqn:E5; cbn [bind]; try discriminate.
    apply (add_blocked_spent _ m) in E5; [|auto|lia|rewrite Hc4; auto].
    pose proof (spent_trans _ _ _ _ _ (spent_trans _ _ _ _ _ (spent_trans _ _ _ _ _ E12 E3) E4) E5) as H5.
    destruct (S n <? D).
    + unfold tcube_next. rewrite Et. cbn [bind]. eapply Hfin; [|exact H5|apply queue_once_push; auto]. lia.
    + eapply Hfin; [|exact H5|exact Hrest]. lia.
  - rewrite unsat_frame, Hnull. cbn [frame_eqb negb]. eapply Hfin; [|exact E12|].
    + lia.
    + apply queue_once_push; auto. apply queue_once_push; auto.
Qed.

Lemma new_frame_spent st st' : new_frame b SS s st = Ok st' ->
  total_calls st' = total_calls st /\ (tidy W (pdr_f st) -> tidy W (pdr_f st')).
Proof.
  unfold new_frame. destruct (nat_sub _ 1) as [m| |]; cbn [bind]; try discriminate.
  destruct (swap (pdr_f st ++ [[]]) m (length (pdr_f st))) as [f| |] eqn:E; cbn [bind]; try discriminate.
  intros X. assert (H : pdr_stats st' = pdr_stats st /\ pdr_f st' = f).
  { revert X. unfold z_new_frame. destruct (solver_lengths b SS 2 _); cbn [bind]; try discriminate.
    match goal with |- context [bind ?m _] => destruct m as [st1| |] eqn:E1; cbn [bind]; try discriminate end.
    destruct (solver_lengths b SS 1 st1); cbn [bind]; try discriminate. intros X. injection X as <-.
    revert E1. destruct (pdr_notp _); repeat step_ok; intros X; injection X as <-; split; reflexivity. }
  destruct H as (H1 & H2). unfold total_calls. rewrite H1, H2. split; auto. intros Ht.
  assert (Ht' : tidy W (pdr_f st ++ [[]])).
  { apply Forall_app. split; auto. constructor; auto. split; [constructor|intros x []]. }
  revert E. unfold swap. destruct (indexn _ m) as [x| |] eqn:Ex; cbn [bind]; try discriminate.
  destruct (indexn _ (length (pdr_f st))) as [y| |] eqn:Ey; cbn [bind]; try discriminate.
  intros X'. injection X' as <-. apply tidy_set; [apply tidy_set|]; eauto using tidy_index.
Qed.
End Spent.

Section Bounded.
Variables (c : circuit) (flag : bool) (s : FSTS) (b : build).
Hypothesis Hsys : system_of b c flag s.
Hypothesis Hf : numbering_fits c flag.
Hypothesis Hwf : circuit_wf c.
Hypothesis Hn : numbered c flag.
Hypothesis He : encodes c flag s.
Variable SS : StatefulSolver.
Hypothesis HS : stateful_correct SS.
Variable R : Random.
Hypothesis HR : random_ok R.
Notation St := (PdrState SS).
Notation J := (b = Debug \/ bad_latches_read c flag).
Notation pinv := (pinv c flag J s SS).
Notation V := (state_literals s).
Notation N := (states c).
Notation L := (length (c_latches c)).
Notation calls := (total_calls SS).

Lemma extract_once asg q : extract_state_from_assignment b s asg = Ok q -> once V (cube_lits q).
Proof. intros H. apply (extract_fine c flag s Hn He) in H. apply H. Qed.

Lemma cubes_count : length (all_cubes V) = 3 ^ L.
Proof.
  unfold all_cubes. rewrite map_length, choices_length, (state_count c flag s He). reflexivity.
Qed.

Lemma pdr_loop_bounded inner : forall outer D st, pinv D st -> D <= N + 1 -> tidy (all_cubes V) (pdr_f st) ->
  forall r st', pdr_loop b R SS s inner outer st = Ok (r, st') ->
  calls st' <= calls st + outer * (1 + inner * (L + N + 3) + (N + 1) * 3 ^ L).
Proof.
  set (K := 1 + inner * (L + N + 3) + (N + 1) * 3 ^ L).
  induction outer as [|outer IH]; intros D st Hp HD Hti r st'; [discriminate|]. cbn [pdr_loop].
  pose proof (get_bad_ok c flag J s b Hsys Hwf Hn He SS HS D st Hp) as HG.
  destruct (z_get_bad_cube b SS s st) as [(o & st1)| |] eqn:E1; cbn [bind]; try discriminate.
  apply (bad_spent b SS s V extract_once) in E1. destruct E1 as ((E1 & T1 & _) & Hone). specialize (T1 Hti).
  cbn [post fst snd] in HG. destruct HG as (Hp1 & Ef1 & Ho).
  destruct o as [z|].
  - destruct Ho as (Hz & Hwit & Hbad). rewrite (pdr_depth_ok c flag J s SS D) by auto. cbn [bind].
    rewrite <- Ef1 in *.
    pose proof (rec_block_cube_ok c flag s b Hsys Hf Hwf Hn He SS HS R HR D inner z st1 Hp1 Hz Hwit Hbad) as HB.
    destruct (rec_block_cube b R SS s inner (mkTCube z (FOk D)) st1) as [(bl & st2)| |] eqn:E2; cbn [bind]; try discriminate.
    cbn [post fst snd] in HB. destruct HB as (Hp2 & _ & _).
    unfold rec_block_cube in E2. cbn [t_frame] in E2.
    apply (rec_block_spent b R SS s V HR extract_once D) in E2.
    + destruct E2 as (E2 & T2 & _). specialize (T2 T1). rewrite (state_count c flag s He) in E2.
      assert (Hle : inner * (L + D + 2) <= inner * (L + N + 3)) by (apply Nat.mul_le_mono_l; lia).
      destruct bl.
      * intros X. apply (IH D) in X; auto. cbn [Nat.mul]. unfold K at 1. lia.
      * destruct (pdr_depth SS st2); cbn [bind]; try discriminate. destruct (depth_of_frame _); cbn [bind]; try discriminate.
        intros X. injection X as _ <-. cbn [Nat.mul]. unfold K at 1. lia.
    + apply queue_once_push; [constructor|]. cbn [t_cube]. auto.
    + apply (f_len _ _ _ _ _ (v_frames _ _ _ _ _ _ _ Hp1)).
  - rewrite <- Ef1 in Ho.
    destruct (new_frame_ok c flag J s b Hsys Hwf Hn He SS HS D st1 Hp1 Ho) as (st2 & E2 & Hp2 & _ & _).
    rewrite E2. cbn [bind]. apply (new_frame_spent b SS s V) in E2. destruct E2 as (C2 & T2). specialize (T2 T1).
    unfold propagate_blocked_cubes. rewrite (pdr_depth_ok c flag J s SS (S D)) by auto. cbn [bind].
    replace (S D - 1) with D by lia.
    destruct (propagate_frames_ok c flag J s b Hsys Hf Hwf Hn He SS HS (S D) D 1 st2 Hp2) as ((o & st3) & E3 & Hp3 & _ & Hres); [lia|lia|intros j Hj; lia|].
    rewrite E3. cbn [bind fst snd] in *. apply (propagate_frames_spent b SS s V extract_once) in E3; auto.
    destruct E3 as (C3 & T3 & _). specialize (T3 T2). rewrite seq_length, cubes_count in C3.
    assert (Hle : D * 3 ^ L <= (N + 1) * 3 ^ L) by (apply Nat.mul_le_mono_r; lia).
    destruct o as [k|].
    + destruct (get_r_i SS s st3 k); cbn [bind]; try discriminate. intros X. injection X as _ <-.
      cbn [Nat.mul]. unfold K at 1. lia.
    + assert (Hsz : S D <= S (size c (pdr_f st3) (S D))).
      { apply (grows_size c flag J (S D)); auto; [apply (v_frames _ _ _ _ _ _ _ Hp3)|lia]. }
      assert (Hle' : size c (pdr_f st3) (S D) <= N) by apply size_le.
      intros X. apply (IH (S D)) in X; auto; [|lia]. cbn [Nat.mul]. unfold K at 1. lia.
Qed.

Lemma pdr_run_bounded fuel r n : pdr_run b R SS fuel s = Ok (r, n) ->
  all_calls n <= (N + 1) * (N + 3) * (1 + (N * (N + 1) * ((N + 2) * (N + 3) + 1) + 2) * (L + N + 3) + (N + 1) * 3 ^ L).
Proof.
  unfold pdr_run, pdr_prove. cbn [pdr_new pdr_f app].
  destruct (first_frame_ok c flag J s b Hsys Hwf Hn He SS HS) as (st & E & Hp & Ef).
  match goal with |- context [new_frame b SS s ?x] => change (new_frame b SS s x) with (new_frame b SS s (with_f SS (pdr_new SS) [[]])) end.
  rewrite E. cbn [bind]. apply (new_frame_spent b SS s V) in E. destruct E as (C0 & T0).
  destruct (pdr_loop b R SS s fuel fuel st) as [(r' & st')| |] eqn:E2; cbn [bind]; try discriminate.
  intros X. injection X as -> <-.
  set (inner := N * (N + 1) * ((N + 2) * (N + 3) + 1) + 2). set (outer := (N + 1) * (N + 3)).
  assert (Eq : pdr_loop b R SS s inner outer st = Ok (r, st')).
  { pose proof (pdr_loop_ok c flag s b Hsys Hf Hwf Hn He SS HS R HR inner outer 0 st Hp ltac:(lia)) as HP.
    destruct (pdr_loop_fuel b R SS s outer (Nat.max outer fuel) inner (Nat.max inner fuel) st ltac:(lia) ltac:(lia)) as [X|X].
    - exfalso. rewrite X in HP. cbn [post] in HP. pose proof (size_le c (pdr_f st) 0) as Hsz.
      destruct HP as [HP|HP].
      + unfold outer in HP. assert ((N + 1) * (N + 3) = (N + 2) * (N + 1) + (N + 1)) by ring. 
        replace (N + 2 - 0) with (N + 2) in HP by lia. lia.
      + unfold inner, big in HP. replace (N + 1 + 2) with (N + 3) in HP by lia. replace (N + 1 + 1) with (N + 2) in HP by lia.
        rewrite (Nat.mul_comm (N + 1) N), (Nat.mul_comm (N + 3) (N + 2)) in HP. lia.
    - rewrite <- X. destruct (pdr_loop_fuel b R SS s fuel (Nat.max outer fuel) fuel (Nat.max inner fuel) st ltac:(lia) ltac:(lia)) as [Y|Y];
        congruence. }
  apply (pdr_loop_bounded inner outer 0 st Hp) in Eq; [|lia|].
  - change (all_calls (pdr_stats st')) with (calls st'). rewrite C0 in Eq. cbn in Eq. exact Eq.
  - apply T0. cbn [with_f pdr_f]. constructor; [|constructor]. split; [constructor|intros x []].
Qed.
End Bounded.
