(** PDR: updates of frames and solvers, generalisation, pushing and propagation. *)
From Coq Require Import Permutation.
From Verif Require Import Base Formulas FormulaLogic Aig Fsts Solvers Ic3 Pdr Brute Spec SpecAig SpecFsts SpecAlg Tac
  FormulasFacts LogicFacts AigFacts SimFacts AigThms FstsFacts FstsSem TagFacts FstsThms BmcThms BruteFacts
  StateFacts Ic3Core QueryFacts Ic3Thms PdrCore PdrQuery.
Open Scope nat_scope.

Section Steps.
Variables (c : circuit) (flag : bool) (J : Prop) (s : FSTS) (b : build).
Hypothesis Hsys : system_of b c flag s.
Hypothesis Hf : numbering_fits c flag.
Hypothesis Hwf : circuit_wf c.
Hypothesis Hn : numbered c flag.
Hypothesis He : encodes c flag s.
Variable SS : StatefulSolver.
Hypothesis HS : stateful_correct SS.
Variable R : Random.
Hypothesis HR : random_ok R.
Notation St := (PdrState SS).
Notation pinv := (pinv c flag J s SS).
Notation holds := (holds SS).

(* ------------------------------------------------------------- adding a blocked cube *)

Lemma remove_frames_ok q k f : k < length f ->
  okay (foldM (fun f d =>
                 cubes <- indexn f d ;;
                 cubes <- remove_subsumed (length cubes) q cubes 0 ;;
                 Ok (set_nth f d cubes)) (seq 1 k) f)
    (fun f' => length f' = length f /\
       (forall j, j = 0 \/ k < j -> nth j f' [] = nth j f []) /\
       (forall j, 1 <= j <= k ->
          (forall x, In x (nth j f' []) <-> In x (nth j f []) /\ subsumes q x = false) /\
          (forall n, (forall x, In x (firstn n (nth j f [])) -> subsumes q x = false) ->
             firstn n (nth j f' []) = firstn n (nth j f [])) /\
          (forall x, In x (nth j f []) -> subsumes q x = true -> length (nth j f' []) < length (nth j f [])))).
Proof.
  intros Hk.
  pose (P := fun m (g : list (list Cube)) => length g = length f /\
       (forall j, j = 0 \/ m <= j -> nth j g [] = nth j f []) /\
       (forall j, 1 <= j < m ->
          (forall x, In x (nth j g []) <-> In x (nth j f []) /\ subsumes q x = false) /\
          (forall n, (forall x, In x (firstn n (nth j f [])) -> subsumes q x = false) ->
             firstn n (nth j g []) = firstn n (nth j f [])) /\
          (forall x, In x (nth j f []) -> subsumes q x = true -> length (nth j g []) < length (nth j f [])))).
  eapply okay_impl; [apply (foldM_seq _ P k 1 f)|].
  - split; auto. split; auto. intros j Hj. lia.
  - intros i g Hi (H1 & H2 & H3). rewrite (indexn_nth _ _ []) by lia. cbn [bind].
    eapply okay_bind; [apply (remove_subsumed_ok q (length (nth i g [])) (nth i g []) 0)|].
    + lia.
    + intros x [].
    + intros r (R1 & R2 & R3 & R4). eexists. split; [reflexivity|]. 
      assert (Ei : nth i g [] = nth i f []) by (apply H2; lia). rewrite Ei in *.
      split; [rewrite set_nth_length; auto|]. split.
      * intros j Hj. rewrite nth_set_nth by lia. destruct (Nat.eqb_spec j i); [lia|]. apply H2. lia.
      * intros j Hj. rewrite nth_set_nth by lia. destruct (Nat.eqb_spec j i) as [->|].
        -- split; auto. split; auto. intros n. apply R2. lia.
        -- apply H3. lia.
  - intros g (H1 & H2 & H3). split; auto. split.
    + intros j Hj. apply H2. lia.
    + intros j Hj. apply H3. lia.
Qed.

Lemma lengths_ok D st less : length (pdr_f st) = D + 1 + less -> solvers SS D (notp_base s) (pdr_f st) (pdr_notp st) \/ length (pdr_notp st) = D + 1 ->
  length (pdr_ri st) = D + 1 -> length (pdr_rit st) = D + 1 -> solver_lengths b SS less st = Ok tt.
Proof.
  intros H1 H2 H3 H4. unfold solver_lengths. assert (H2' : length (pdr_notp st) = D + 1) by (destruct H2 as [(H2 & _)|]; auto).
  rewrite H2', H3, H4, H1, !Nat.eqb_refl. destruct b; reflexivity.
Qed.

Lemma add_to_solvers_ok D q i (f f' : list (list Cube)) st : state_like c q -> i <= D ->
  (forall a, rf f' i a <-> rf f i a /\ ~ cube_true a q) ->
  length (pdr_notp st) = D + 1 -> length (pdr_ri st) = D + 1 -> length (pdr_rit st) = D + 1 ->
  (forall x, nth_error (pdr_notp st) i = Some x -> holds x (notp_base s i) f i) ->
  (forall x, nth_error (pdr_ri st) i = Some x -> holds x (ri_base s i) f i) ->
  (forall x, nth_error (pdr_rit st) i = Some x -> holds x (rit_base s i) f i) ->
  okay (add_to_solvers SS (cnf_add_clause cnf_new (cube_not q)) st i) (fun st' =>
    exists x y z, holds x (notp_base s i) f' i /\ holds y (ri_base s i) f' i /\ holds z (rit_base s i) f' i /\
      st' = with_rit SS (with_notp SS (with_ri SS st (set_nth (pdr_ri st) i y)) (set_nth (pdr_notp st) i x))
              (set_nth (pdr_rit st) i z)).
Proof.
  intros Hq Hi Ha L1 L2 L3 H1 H2 H3. unfold add_to_solvers.
  destruct (indexn_error (pdr_ri st) i) as (y & Y1 & Y2); [lia|]. rewrite Y2. cbn [bind].
  eapply okay_bind; [apply (holds_add c flag Hf SS HS y _ f f' i q (H2 y Y1) Hq Ha)|]. intros y' Hy'.
  cbn [with_ri pdr_notp]. destruct (indexn_error (pdr_notp st) i) as (x & X1 & X2); [lia|]. rewrite X2. cbn [bind].
  eapply okay_bind; [apply (holds_add c flag Hf SS HS x _ f f' i q (H1 x X1) Hq Ha)|]. intros x' Hx'.
  cbn [with_notp with_ri pdr_rit]. destruct (indexn_error (pdr_rit st) i) as (z & Z1 & Z2); [lia|]. rewrite Z2. cbn [bind].
  eapply okay_bind; [apply (holds_add c flag Hf SS HS z _ f f' i q (H3 z Z1) Hq Ha)|]. intros z' Hz'.
  eexists. split; [reflexivity|]. exists x', y', z'. auto.
Qed.

Lemma block_in_solver_ok D f q k st : state_like c q -> 1 <= k <= D -> finv c flag J D f ->
  added f (pdr_f st) k q ->
  solvers SS D (notp_base s) f (pdr_notp st) -> solvers SS D (ri_base s) f (pdr_ri st) ->
  solvers SS D (rit_base s) f (pdr_rit st) -> finv c flag J D (pdr_f st) ->
  okay (z_block_cube_in_solver b SS (mkTCube q (FOk k)) st) (fun st' => pinv D st' /\ pdr_f st' = pdr_f st /\
     pdr_draws st' = pdr_draws st).
Proof.
  intros Hq Hk Hfi Ha S1 S2 S3 Hfi'. unfold z_block_cube_in_solver.
  rewrite (lengths_ok D); [|rewrite (f_len _ _ _ _ _ Hfi'); lia|right; apply S1|apply S2|apply S3]. cbn [bind t_frame t_cube].
  replace (k <? length (pdr_ri st)) with true by (symmetry; rewrite (proj1 S2); apply Nat.ltb_lt; lia).
  replace (debug_assert b true) with (Ok tt) by (destruct b; reflexivity). cbn [bind].
  assert (H0 : nth 0 f [] = []) by (apply (nth_empty c flag J D); auto).
  set (f' := pdr_f st) in *.
  pose (at_ := fun m (base : nat -> CNF) (l : list (ss_state SS)) => length l = D + 1 /\
     forall i x, nth_error l i = Some x -> holds x (base i) (if i <? m then f' else f) i).
  pose (P := fun m (st' : St) => pdr_f st' = f' /\ pdr_draws st' = pdr_draws st /\
     at_ m (notp_base s) (pdr_notp st') /\ at_ m (ri_base s) (pdr_ri st') /\ at_ m (rit_base s) (pdr_rit st')).
  assert (Hset : forall m base l x, m <= D -> at_ m base l -> holds x (base m) f' m -> at_ (S m) base (set_nth l m x)).
  { intros m base l x Hm (L1 & L2) Hx. split; [rewrite set_nth_length; auto|]. intros i y.
    rewrite nth_error_set_nth by lia. destruct (Nat.eqb_spec i m) as [->|Hne].
    - intros [= <-]. replace (m <? S m) with true by (symmetry; apply Nat.ltb_lt; lia). auto.
    - intros Hy. specialize (L2 i y Hy). replace (i <? S m) with (i <? m); auto.
      destruct (Nat.ltb_spec i m), (Nat.ltb_spec i (S m)); auto; lia. }
  eapply okay_impl; [apply (foldM_seq _ P (k + 1) 0 st)|].
  - assert (Hz : forall base l, solvers SS D base f l -> at_ 0 base l) by (intros base l X; exact X).
    split; [reflexivity|]. split; [reflexivity|]. split; [|split]; apply Hz; assumption.
  - intros i st1 Hi (E1 & E0 & (L1 & A1) & (L2 & A2) & (L3 & A3)).
    eapply okay_impl; [apply (add_to_solvers_ok D q i f f' st1); auto; [lia| | | |]|].
    + intros a. rewrite (added_rf f f' k q i a Ha (or_intror H0)). assert (i <= k) by lia. tauto.
    + intros x Hx. specialize (A1 i x Hx). rewrite Nat.ltb_irrefl in A1. auto.
    + intros x Hx. specialize (A2 i x Hx). rewrite Nat.ltb_irrefl in A2. auto.
    + intros x Hx. specialize (A3 i x Hx). rewrite Nat.ltb_irrefl in A3. auto.
    + intros st2 (x & y & z & X & Y & Z & ->). split; [auto|]. split; [auto|].
      cbn [with_rit with_notp with_ri pdr_notp pdr_ri pdr_rit].
      split; [|split]; apply Hset; try lia; auto; split; auto.
  - intros st1 (E1 & E0 & A1 & A2 & A3). split; [|auto].
    assert (Hz : forall base l, at_ (0 + (k + 1)) base l -> solvers SS D base f' l).
    { intros base l (L1 & L2). split; auto. intros i x Hx. specialize (L2 i x Hx).
      destruct (Nat.ltb_spec i (0 + (k + 1))); auto. eapply holds_iff; [|exact L2].
      intros a. rewrite (added_rf f f' k q i a Ha (or_intror H0)). assert (~ i <= k) by lia. tauto. }
    split; rewrite E1; auto.
Qed.

Lemma add_blocked_ok D st q k : pinv D st -> state_like c q -> 1 <= k <= D -> rel_ind c J (pdr_f st) k q ->
  okay (add_blocked_cube b SS (mkTCube q (FOk k)) st) (fun st' => pinv D st' /\
    added (pdr_f st) (pdr_f st') k q /\ pdr_draws st' = pdr_draws st /\
    (forall j, j < k ->
       (forall n, (forall x, In x (firstn n (nth j (pdr_f st) [])) -> subsumes q x = false) ->
          firstn n (nth j (pdr_f st') []) = firstn n (nth j (pdr_f st) [])) /\
       (forall x, In x (nth j (pdr_f st) []) -> subsumes q x = true ->
          length (nth j (pdr_f st') []) < length (nth j (pdr_f st) [])))).
Proof.
  intros Hp Hq Hk Hr. unfold add_blocked_cube. cbn [t_frame t_cube]. rewrite (pdr_depth_ok c flag J s SS D) by auto. cbn [bind].
  replace (Nat.min k (D + 1)) with k by lia.
  pose proof (v_frames _ _ _ _ _ _ _ Hp) as Hfi. pose proof (f_len _ _ _ _ _ Hfi) as Hl.
  assert (H0 : nth 0 (pdr_f st) [] = []) by (apply (nth_empty c flag J D); auto).
  eapply okay_bind; [apply (remove_frames_ok q k (pdr_f st)); lia|].
  intros g (G1 & G2 & G3). rewrite (indexn_nth _ _ []) by lia. cbn [bind].
  set (f' := set_nth g k (nth k g [] ++ [q])).
  assert (Ha : added (pdr_f st) f' k q).
  { split; [unfold f'; rewrite set_nth_length; auto|]. intros j x. unfold f'. rewrite nth_set_nth by lia.
    destruct (Nat.eqb_spec j k) as [->|Hne].
    - rewrite in_app_iff. destruct (G3 k ltac:(lia)) as (X & _). rewrite X. simpl. split.
      + intros [(Y1 & Y2)|[Y|[]]]; auto.
      + intros [(Y1 & Y2)|(_ & Y)]; auto. left. split; auto. apply Y2. lia.
    - destruct (Nat.eq_dec j 0) as [->|Hj].
      + rewrite G2 by auto. rewrite H0. simpl. intuition.
      + destruct (Nat.le_gt_cases j k).
        * destruct (G3 j ltac:(lia)) as (X & _). rewrite X. split; [intros (Y1 & Y2); left; auto|].
          intros [(Y1 & Y2)|(Y & _)]; [|lia]. split; auto. apply Y2. lia.
        * rewrite G2 by auto. split; [intros Y; left; split; auto; lia|]. intros [(Y & _)|(Y & _)]; auto. lia. }
  assert (Hfi' : finv c flag J D f') by (eapply added_finv; eauto).
  eapply okay_impl; [apply (block_in_solver_ok D (pdr_f st) q k (with_f SS st f')); auto; apply Hp|].
  cbn [with_f pdr_f pdr_draws]. intros st' (H1 & H2 & H3). split; auto. rewrite H2. split; auto. split; auto.
  intros j Hj. unfold f'. rewrite !nth_set_nth by lia. destruct (Nat.eqb_spec j k); [lia|].
  destruct (Nat.eq_dec j 0) as [->|Hj0].
  - rewrite G2 by auto. rewrite H0. split; auto. intros x [].
  - destruct (G3 j ltac:(lia)) as (_ & X & Y). auto.
Qed.

(* ----------------------------------------------------------------------- new frame *)

Lemma swap_snoc (f : list (list Cube)) n : length f = S n -> nth n f [] = [] ->
  swap (f ++ [[]]) n (S n) = Ok (f ++ [[]]).
Proof.
  intros Hl H0. unfold swap.
  rewrite (indexn_nth _ _ []) by (rewrite app_length; simpl; lia). rewrite app_nth1 by lia. rewrite H0. cbn [bind].
  rewrite (indexn_nth _ _ []) by (rewrite app_length; simpl; lia). rewrite app_nth2 by lia. rewrite Hl, Nat.sub_diag. cbn [bind nth].
  f_equal. apply nth_ext with (d := []) (d' := []); [rewrite !set_nth_length; auto|].
  intros k Hk. rewrite !set_nth_length in Hk. rewrite app_length in Hk. cbn [length] in Hk.
  rewrite !nth_set_nth by (rewrite ?set_nth_length, app_length; cbn [length]; lia).
  destruct (Nat.eqb_spec k (S n)) as [->|].
  - rewrite app_nth2 by lia. rewrite Hl, Nat.sub_diag. reflexivity.
  - destruct (Nat.eqb_spec k n) as [->|]; auto. rewrite app_nth1 by lia. auto.
Qed.

Lemma nth_snoc_nil {A} (f : list (list A)) j : nth j (f ++ [[]]) [] = nth j f [].
Proof.
  destruct (Nat.lt_ge_cases j (length f)) as [H|H]; [apply app_nth1; auto|].
  rewrite app_nth2 by auto. rewrite (nth_overflow f) by auto. destruct (j - length f) as [|[|n]]; reflexivity.
Qed.
Lemma rf_snoc f i w : rf (f ++ [[]]) i w <-> rf f i w.
Proof. unfold rf. setoid_rewrite nth_snoc_nil. tauto. Qed.
Lemma rk_snoc f i w : rk c (f ++ [[]]) i w <-> rk c f i w.
Proof. unfold rk. rewrite rf_snoc. tauto. Qed.

Lemma new_frame_ok D st : pinv D st -> (forall w, wires_ok c w -> rk c (pdr_f st) D w -> ~ is_bad c flag w) ->
  okay (new_frame b SS s st) (fun st' => pinv (S D) st' /\ pdr_f st' = pdr_f st ++ [[]] /\ pdr_draws st' = pdr_draws st).
Proof.
  intros Hp Hb. pose proof (v_frames _ _ _ _ _ _ _ Hp) as Hfi. pose proof (f_len _ _ _ _ _ Hfi) as Hl.
  unfold new_frame, nat_sub. replace (1 <=? length (pdr_f st)) with true by (symmetry; apply Nat.leb_le; lia). cbn [bind].
  replace (length (pdr_f st)) with (S (S D)) by lia. replace (S (S D) - 1) with (S D) by lia.
  rewrite swap_snoc; [|lia|apply (nth_empty c flag J D); auto]. cbn [bind].
  set (f' := pdr_f st ++ [[]]).
  assert (Hfi' : finv c flag J (S D) f').
  { split.
    - unfold f'. rewrite app_length. cbn [length]. lia.
    - intros j q Hq. unfold f' in Hq. rewrite nth_snoc_nil in Hq.
      destruct (f_cube _ _ _ _ _ Hfi j q Hq) as (H1 & H2 & H3 & H4).
      split; [lia|]. split; auto. split; auto. intros w w' Hst Hw. apply (H4 w w' Hst). apply (proj1 (rk_snoc _ _ _)) in Hw. exact Hw.
    - intros i w Hi Hw Hk. apply (proj1 (rk_snoc _ _ _)) in Hk. destruct (Nat.eq_dec i D) as [->|]; [apply Hb; auto|].
      apply (f_safe _ _ _ _ _ Hfi i w); auto. lia. }
  assert (Hall : forall a, rf f' (S D) a).
  { intros a j q Hj Hq. destruct (f_cube _ _ _ _ _ Hfi' j q Hq) as (H1 & _). assert (j = S D) as -> by lia.
    unfold f' in Hq. rewrite nth_snoc_nil, (nth_empty c flag J D) in Hq by (auto; lia). elim Hq. }
  assert (Happ : forall base l x, solvers SS D base (pdr_f st) l -> holds x (base (S D)) f' (S D) ->
     solvers SS (S D) base f' (l ++ [x])).
  { intros base l x (L1 & L2) Hx. split; [rewrite app_length; cbn [length]; lia|]. intros i y.
    destruct (Nat.lt_ge_cases i (length l)) as [Hi|Hi].
    - rewrite nth_error_app1 by auto. intros Hy. eapply holds_iff; [|exact (L2 i y Hy)]. intros a.
      symmetry. apply rf_snoc.
    - rewrite nth_error_app2 by auto. destruct (i - length l) as [|m] eqn:Em; [|destruct m; discriminate].
      cbn. intros [= <-]. assert (i = S D) as -> by lia. auto. }
  unfold z_new_frame.
  rewrite (lengths_ok D); [|cbn [with_f pdr_f]; unfold f'; rewrite app_length; cbn [length]; lia|right; apply (v_notp _ _ _ _ _ _ _ Hp)|apply (v_ri _ _ _ _ _ _ _ Hp)|apply (v_rit _ _ _ _ _ _ _ Hp)].
  cbn [bind with_f pdr_notp pdr_ri pdr_rit pdr_f].
  pose proof (proj1 (v_notp _ _ _ _ _ _ _ Hp)) as Hln. destruct (pdr_notp st) as [|n0 nl] eqn:En; [cbn [length] in Hln; lia|]. rewrite <- En in *.
  destruct (base_fine c flag s Hwf Hn He (S D)) as ((B1 & B2) & (B3 & B4) & (B5 & B6)).
  destruct (holds_new SS HS (notp_base s (S D)) f' (S D) Hall B1 B2) as (x & Ex & Hx).
  destruct (holds_new SS HS (rit_base s (S D)) f' (S D) Hall B5 B6) as (z & Ez & Hz).
  pose proof (holds_empty SS f' (S D) Hall) as Hy.
  unfold notp_base, rit_base in Ex, Ez. cbn [Nat.eqb] in Ex, Ez. rewrite Ex. cbn [bind]. rewrite Ez. cbn [bind].
  assert (Hp' : pinv (S D) (with_rit SS (with_ri SS (with_notp SS (with_f SS st f') (pdr_notp st ++ [x]))
      (pdr_ri st ++ [ss_new SS HintNone])) (pdr_rit st ++ [z]))).
  { split; cbn [with_rit with_ri with_notp with_f pdr_f pdr_notp pdr_ri pdr_rit]; auto; apply Happ; auto; apply Hp. }
  cbn [with_rit with_ri with_notp with_f pdr_f pdr_notp pdr_ri pdr_rit pdr_cut_pred pdr_cut_bad pdr_draws] in *.
  rewrite (lengths_ok (S D)).
  - cbn [bind]. eexists. split; [reflexivity|]. cbn. auto.
  - etransitivity; [exact (f_len _ _ _ _ _ Hfi')|lia].
  - right. apply (v_notp _ _ _ _ _ _ _ Hp').
  - apply (v_ri _ _ _ _ _ _ _ Hp').
  - apply (v_rit _ _ _ _ _ _ _ Hp').
Qed.

Lemma first_frame_ok :
  okay (new_frame b SS s (with_f SS (pdr_new SS) [[]])) (fun st' => pinv 0 st' /\ pdr_f st' = [[];[]]).
Proof.
  unfold new_frame, z_new_frame, pdr_new, with_f. cbn [pdr_f pdr_notp pdr_ri pdr_rit length nat_sub Nat.leb Nat.sub bind app swap indexn nth_error unwrap set_nth].
  replace (solver_lengths b SS 2 _) with (Ok tt) by (destruct b; reflexivity). cbn [bind].
  set (f' := [[];[]] : list (list Cube)).
  assert (Hnil : forall j, nth j f' [] = []) by (intros [|[|[|j]]]; reflexivity).
  assert (Hall : forall i a, rf f' i a) by (intros i a j q _ Hq; rewrite Hnil in Hq; elim Hq).
  destruct (base_fine c flag s Hwf Hn He 0) as ((B1 & B2) & (B3 & B4) & (B5 & B6)).
  destruct (holds_new SS HS (notp_base s 0) f' 0 (Hall 0) B1 B2) as (x & Ex & Hx).
  destruct (holds_new SS HS (ri_base s 0) f' 0 (Hall 0) B3 B4) as (y & Ey & Hy).
  destruct (holds_new SS HS (rit_base s 0) f' 0 (Hall 0) B5 B6) as (z & Ez & Hz).
  unfold notp_base, ri_base, rit_base in Ex, Ey, Ez. cbn [Nat.eqb] in Ex, Ey, Ez.
  rewrite Ex. cbn [bind]. rewrite Ey. cbn [bind]. rewrite Ez. cbn [bind].
  replace (solver_lengths b SS 1 _) with (Ok tt) by (destruct b; reflexivity). cbn [bind].
  eexists. split; [reflexivity|]. cbn [with_rit with_ri with_notp pdr_f]. split; auto.
  assert (Hone : forall base u, holds u (base 0) f' 0 -> solvers SS 0 base f' [u]).
  { intros base u Hu. split; auto. intros [|[|i]] v; cbn; try discriminate. intros [= <-]. auto. }
  split; cbn [with_rit with_ri with_notp pdr_f pdr_notp pdr_ri pdr_rit]; auto.
  split; auto.
  - intros j q Hq. fold f' in Hq. rewrite Hnil in Hq. elim Hq.
  - intros i w Hi. lia.
Qed.

(* ------------------------------------------------------- generalisation and pushing *)

Lemma state_like_incl q lits : state_like c q -> incl lits (cube_lits q) -> state_like c (cube_new lits).
Proof.
  intros (A & V) H. split; [apply cube_new_api|]. intros l Hl. rewrite in_cube_new in Hl. apply V, H, Hl.
Qed.
Lemma consistent_incl q lits : consistent q -> incl lits (cube_lits q) -> consistent (cube_new lits).
Proof. intros (w & Hw) H. exists w. apply cube_new_true. intros l Hl. apply Hw, H, Hl. Qed.

Lemma unsat_frame t : is_solve_relative_un_sat t = negb (frame_eqb (t_frame t) FNull).
Proof. reflexivity. Qed.

Lemma rel_ind_perm f n l1 l2 : Permutation l1 l2 -> rel_ind c J f n (cube_new l1) -> rel_ind c J f n (cube_new l2).
Proof.
  intros Hp. assert (E : forall w, cube_true w (cube_new l1) <-> cube_true w (cube_new l2)).
  { intros w. rewrite !cube_new_true. split; intros H l Hl; apply H.
    - apply (Permutation_in _ (Permutation_sym Hp)); auto.
    - apply (Permutation_in _ Hp); auto. }
  intros (H1 & H2). split.
  - intros HJ w Hw T. apply (H1 HJ w Hw), E, T.
  - intros w w' Hst Hk Hq T. apply (H2 w w' Hst Hk); [intros X; apply Hq, E, X|apply E, T].
Qed.

Lemma generalize_loop_ok D n q : state_like c q -> consistent q -> 1 <= n <= D -> forall fuel lits j st, pinv D st ->
  incl lits (cube_lits q) -> length lits <= fuel + j ->
  rel_ind c J (pdr_f st) n (cube_new lits) ->
  okay (pdr_generalize_loop b SS s fuel (FOk n) lits j st) (fun r => pinv D (snd r) /\ pdr_f (snd r) = pdr_f st /\
    incl (fst r) (cube_lits q) /\ rel_ind c J (pdr_f st) n (cube_new (fst r))).
Proof.
  intros Hq Hcons Hn1. induction fuel as [|fuel IH]; intros lits j st Hp Hin Hl Hr; cbn [pdr_generalize_loop].
  all: destruct (Nat.ltb_spec j (length lits)) as [Hj|Hj].
  - lia.
  - eexists. split; [reflexivity|]. auto.
  - destruct (swap_remove_ok lits j Hj) as (l & shorter & E & Hperm). rewrite E. cbn [bind t_cube].
    pose proof (Permutation_length Hperm) as Hlen. cbn [length] in Hlen.
    assert (Hin' : incl shorter (cube_lits q)).
    { intros x Hx. apply Hin. apply (Permutation_in _ (Permutation_sym Hperm)). right. auto. }
    assert (Hlike : state_like c (cube_new shorter)) by (eapply state_like_incl; eauto).
    assert (Hback : forall st1, pinv D st1 -> pdr_f st1 = pdr_f st ->
      okay (restored <- swap (shorter ++ [l]) j (length (shorter ++ [l]) - 1) ;;
            pdr_generalize_loop b SS s fuel (FOk n) restored (S j) st1)
       (fun r => pinv D (snd r) /\ pdr_f (snd r) = pdr_f st /\
          incl (fst r) (cube_lits q) /\ rel_ind c J (pdr_f st) n (cube_new (fst r)))).
    { intros st1 Hp1 Ef. destruct (swap_last_ok (shorter ++ [l]) j) as (r & Er & Hpr).
      { rewrite app_length. cbn [length]. lia. }
      rewrite Er. cbn [bind]. rewrite <- Ef.
      assert (Hp2 : Permutation lits r).
      { eapply perm_trans; [exact Hperm|]. eapply perm_trans; [|exact Hpr].
        apply Permutation_cons_append. }
      apply IH; auto.
      - intros x Hx. apply Hin. apply (Permutation_in _ (Permutation_sym Hp2)). auto.
      - rewrite <- (Permutation_length Hp2). lia.
      - rewrite Ef. eapply rel_ind_perm; eauto. }
    destruct (is_cube_initial s (cube_new shorter)) eqn:Ei.
    + cbn [bind]. apply Hback; auto.
    + destruct (solve_relative_ok c flag J s b Hsys Hf Hwf Hn He SS HS D st (cube_new shorter) n DoNotExtractModel Hp Hlike Hn1)
        as ((t & st1) & Et & Hp1 & Ef & _ & Hcase). cbn [fst snd] in *. rewrite Et. cbn [bind].
      destruct Hcase as [(-> & Hind)|(Hnull & _)].
      * cbn [is_solve_relative_un_sat t_frame frame_eqb negb bind]. rewrite <- Ef in *. apply IH; auto; [lia|].
        split.
        -- intros _ w Hw T. pose proof (cube_initial_correct b c flag s (cube_new shorter) Hsys
             (consistent_incl q shorter Hcons Hin')) as Hci. rewrite Ei in Hci.
           assert (false = true); [|discriminate]. apply Hci. eauto.
        -- intros w w' Hst Hk Hnq. apply (Hind w w' Hst Hk). auto.
      * rewrite unsat_frame, Hnull. cbn [frame_eqb negb bind]. apply Hback; auto.
  - eexists. split; [reflexivity|]. auto.
Qed.

Lemma generalize_ok D st q n : pinv D st -> state_like c q -> consistent q -> 1 <= n <= D ->
  rel_ind c J (pdr_f st) n q ->
  okay (pdr_generalize b R SS s (mkTCube q (FOk n)) st) (fun r => pinv D (snd r) /\ pdr_f (snd r) = pdr_f st /\
    exists z, fst r = mkTCube z (FOk n) /\ state_like c z /\ (forall w, cube_true w q -> cube_true w z) /\
      rel_ind c J (pdr_f st) n z).
Proof.
  intros Hp Hq Hcons Hn1 Hr. unfold pdr_generalize. cbn [t_frame t_cube].
  pose proof (HR (pdr_draws st) Literal (cube_iter q)) as Hperm. unfold cube_iter in *.
  set (lits := R (pdr_draws st) Literal (cube_lits q)) in *.
  assert (Hincl : incl lits (cube_lits q)) by (intros x Hx; apply (Permutation_in _ Hperm); auto).
  destruct (generalize_loop_ok D n q Hq Hcons Hn1 (length lits) lits 0 (with_draws SS st (S (pdr_draws st))))
    as ((l & st1) & E & H1 & H2 & H3 & H4); auto.
  - apply pinv_draws; auto.
  - lia.
  - cbn [with_draws pdr_f]. split.
    + intros HJ w Hw T. apply (proj1 Hr HJ w Hw). intros x Hx. rewrite cube_new_true in T. apply T.
      apply (Permutation_in _ (Permutation_sym Hperm)). auto.
    + assert (E : forall w, cube_true w (cube_new lits) <-> cube_true w q).
      { intros w. rewrite cube_new_true. split; intros H x Hx; apply H; auto.
        apply (Permutation_in _ (Permutation_sym Hperm)). auto. }
      intros w w' Hst Hk Hnq T. apply (proj2 Hr w w' Hst Hk); [intros X; apply Hnq, E, X|apply E, T].
  - rewrite E. cbn [bind fst snd] in *. cbn [with_draws pdr_f] in *. eexists. split; [reflexivity|]. cbn [fst snd].
    split; auto. split; auto. exists (cube_new l). split; auto. split; [eapply state_like_incl; eauto|]. split; auto.
    intros w Hw. apply cube_new_true. intros x Hx. apply Hw, H3, Hx.
Qed.

Lemma push_forward_ok D z : state_like c z -> forall fuel n st, pinv D st -> 1 <= n <= D -> D - n <= fuel ->
  rel_ind c J (pdr_f st) n z ->
  okay (push_forward b SS s fuel (D - 1) (mkTCube z (FOk n)) n st) (fun r => pinv D (snd r) /\ pdr_f (snd r) = pdr_f st /\
    exists k, fst r = mkTCube z (FOk k) /\ n <= k <= D /\ rel_ind c J (pdr_f st) k z).
Proof.
  intros Hz. induction fuel as [|fuel IH]; intros n st Hp Hn1 Hfu Hr; cbn [push_forward].
  all: destruct (Nat.ltb_spec n (D - 1)) as [Hlt|Hlt].
  - lia.
  - eexists. split; [reflexivity|]. cbn [fst snd]. split; auto. split; auto. exists n. split; [reflexivity|]. split; [lia|auto].
  - unfold tcube_next. cbn [t_frame t_cube bind].
    destruct (solve_relative_ok c flag J s b Hsys Hf Hwf Hn He SS HS D st z (n + 1) DoNotExtractModel Hp Hz ltac:(lia))
        as ((t & st1) & Et & Hp1 & Ef & _ & Hcase). cbn [fst snd] in *. rewrite Et. cbn [bind].
    destruct Hcase as [(-> & Hind)|(Hnull & _)].
    + cbn [is_solve_relative_un_sat t_frame frame_eqb negb].
      destruct (IH (n + 1) st1 Hp1) as (r & Er & H1 & H2 & k & H3 & H4 & H5); [lia|lia| |].
      { rewrite Ef. split; [apply Hr|]. intros w w' Hst Hk Hq. apply (Hind w w' Hst Hk). auto. }
      exists r. split; auto. split; auto. split; [congruence|]. exists k. split; auto. split; [lia|]. rewrite <- Ef. auto.
    + rewrite unsat_frame, Hnull. cbn [frame_eqb negb].
      eexists. split; [reflexivity|]. cbn [fst snd]. split; auto. split; auto. exists n. split; [reflexivity|]. split; [lia|auto].
  - eexists. split; [reflexivity|]. cbn [fst snd]. split; auto. split; auto. exists n. split; [reflexivity|]. split; [lia|auto].
Qed.

(* --------------------------------------------------------------------- propagation *)

(** [x] can still be entered from frame [k]. *)
Definition entered (f : list (list Cube)) (k : nat) (x : Cube) : Prop :=
  exists w w', steps c w w' /\ rk c f k w /\ cube_true w' x.

(** Between the passes only frame [k + 1] may lose states. *)
Definition moved (k : nat) (f f' : list (list Cube)) : Prop :=
  (forall i w, i <> S k -> rf f' i w <-> rf f i w) /\ (forall w, rf f' (S k) w -> rf f (S k) w).

Lemma moved_refl k f : moved k f f.
Proof. split; [tauto|auto]. Qed.
Lemma moved_trans k f g h : moved k f g -> moved k g h -> moved k f h.
Proof. intros (A1 & A2) (B1 & B2). split; [|auto]. intros i w Hi. rewrite B1, A1 by auto. tauto. Qed.
Lemma moved_rk k f f' i w : moved k f f' -> i <> S k -> rk c f' i w <-> rk c f i w.
Proof. intros (A & _) Hi. unfold rk. rewrite A by auto. tauto. Qed.

Lemma propagate_cubes_ok D k : 1 <= k < D -> forall fuel idx st, pinv D st ->
  length (nth k (pdr_f st) []) <= fuel + idx ->
  (forall x, In x (firstn idx (nth k (pdr_f st) [])) -> entered (pdr_f st) k x) ->
  okay (propagate_cubes b SS s fuel k idx st) (fun st' => pinv D st' /\ moved k (pdr_f st) (pdr_f st') /\
    pdr_draws st' = pdr_draws st /\
    forall x, In x (nth k (pdr_f st') []) -> entered (pdr_f st') k x).
Proof.
  intros Hk. induction fuel as [|fuel IH]; intros idx st Hp Hfu Hpre; cbn [propagate_cubes].
  all: pose proof (v_frames _ _ _ _ _ _ _ Hp) as Hfi; pose proof (f_len _ _ _ _ _ Hfi) as Hl;
    rewrite (indexn_nth _ _ []) by lia; cbn [bind];
    destruct (Nat.ltb_spec idx (length (nth k (pdr_f st) []))) as [Hi|Hi].
  - lia.
  - exists st. split; auto. split; auto. split; [apply moved_refl|]. split; auto.
    rewrite firstn_all2 in Hpre by auto. auto.
  - destruct (indexn_error (nth k (pdr_f st) []) idx Hi) as (q & Eq & E). rewrite E. cbn [bind].
    assert (Hin : In q (nth k (pdr_f st) [])) by (eapply nth_error_In; eauto).
    destruct (f_cube _ _ _ _ _ Hfi k q Hin) as (_ & Hlike & Hinit & _).
    destruct (solve_relative_ok c flag J s b Hsys Hf Hwf Hn He SS HS D st q (k + 1) NoInd Hp Hlike ltac:(lia))
        as ((t & st1) & Et & Hp1 & Ef & Ed & Hcase). cbn [fst snd] in *. rewrite Et. cbn [bind].
    replace (k + 1 - 1) with k in Hcase by lia.
    destruct Hcase as [(-> & Hind)|(Hnull & w & w' & Hst & Hw & _ & Hq & _)].
    + cbn [is_solve_relative_un_sat t_frame frame_eqb negb].
      assert (Hind' : forall w w', steps c w w' -> rk c (pdr_f st) k w -> ~ cube_true w' q).
      { intros w w' Hst Hw. apply (Hind w w' Hst Hw). cbn [with_self]. discriminate. }
      destruct (add_blocked_ok D st1 q (k + 1) Hp1 Hlike ltac:(lia)) as (st2 & E2 & Hp2 & Ha & Ed2 & Hpre2).
      { rewrite Ef. split; auto. intros w w' Hst Hw _. replace (k + 1 - 1) with k in Hw by lia. eauto. }
      rewrite E2. cbn [bind]. rewrite Ef in *.
      assert (H0 : nth 0 (pdr_f st) [] = []) by (apply (nth_empty c flag J D); auto).
      assert (Hm : moved k (pdr_f st) (pdr_f st2)).
      { pose proof (added_rf _ _ _ _ : forall i w, added (pdr_f st) (pdr_f st2) (k + 1) q -> _) as Hrf. split.
        - intros i w Hi'. rewrite (Hrf i w Ha) by auto. split; [tauto|]. intros Hw. split; auto. intros Hle.
          apply (Hw k q); auto. lia.
        - intros w Hw. apply (Hrf _ w Ha) in Hw; auto. apply Hw. }
      destruct (Hpre2 k ltac:(lia)) as (P1 & P2).
      assert (Hnot : forall x, In x (firstn idx (nth k (pdr_f st) [])) -> subsumes q x = false).
      { intros x Hx. destruct (subsumes q x) eqn:Es; auto. destruct (Hpre x Hx) as (w & w' & Hst & Hw & Hx').
        elim (Hind' w w' Hst Hw). eapply subsumes_true; eauto. }
      pose proof (P1 idx Hnot) as Efirst. pose proof (P2 q Hin (subsumes_refl q)) as Hshort.
      destruct (IH idx st2 Hp2) as (st3 & E3 & Hp3 & Hm3 & Ed3 & Hend).
      * lia.
      * intros x Hx. rewrite Efirst in Hx. destruct (Hpre x Hx) as (w & w' & Hst & Hw & Hx').
        exists w, w'. split; auto. split; auto. apply (moved_rk k _ _ k w Hm); auto.
      * exists st3. split; auto. split; auto. split; [eapply moved_trans; eauto|]. split; [congruence|auto].
    + rewrite unsat_frame, Hnull. cbn [frame_eqb negb]. rewrite <- Ef, <- Ed in *. apply IH; auto; [lia|].
      intros x Hx. destruct (in_firstn_S _ _ _ _ Eq Hx) as [Hx'| ->]; auto. exists w, w'. auto.
  - exists st. split; auto. split; auto. split; [apply moved_refl|]. split; auto.
    rewrite firstn_all2 in Hpre by auto. auto.
Qed.

(** Frame [j + 1] has states that frame [j] has not. *)
Definition grows (f : list (list Cube)) (j : nat) : Prop := exists w, rf f (S j) w /\ ~ rf f j w.

Lemma propagate_frames_ok D : forall n a st, pinv D st -> 1 <= a -> a + n = D ->
  (forall j, 1 <= j < a -> grows (pdr_f st) j) ->
  okay (Pdr.propagate_frames b SS s (seq a n) st) (fun r => pinv D (snd r) /\ pdr_draws (snd r) = pdr_draws st /\
    match fst r with
    | Some k => 1 <= k < D /\ nth k (pdr_f (snd r)) [] = []
    | None => forall j, 1 <= j < D -> grows (pdr_f (snd r)) j
    end).
Proof.
  induction n as [|n IH]; intros a st Hp Ha Han Hg; cbn [seq Pdr.propagate_frames].
  - eexists. split; [reflexivity|]. cbn [fst snd]. split; auto. split; auto. intros j Hj. apply Hg. lia.
  - pose proof (f_len _ _ _ _ _ (v_frames _ _ _ _ _ _ _ Hp)) as Hl.
    rewrite (indexn_nth _ _ []) by lia; cbn [bind].
    destruct (propagate_cubes_ok D a ltac:(lia) (length (nth a (pdr_f st) [])) 0 st Hp)
      as (st1 & E1 & Hp1 & Hm & Ed & Hend); [lia|intros x []|].
    rewrite E1. cbn [bind]. pose proof (v_frames _ _ _ _ _ _ _ Hp1) as Hfi1.
    pose proof (f_len _ _ _ _ _ Hfi1) as Hl1.
    rewrite (indexn_nth _ _ []) by lia; cbn [bind].
    destruct (nth a (pdr_f st1) []) as [|x r] eqn:En.
    + eexists. split; [reflexivity|]. cbn [fst snd]. split; auto. split; auto. split; auto. lia.
    + eapply okay_impl; [apply (IH (S a) st1 Hp1); [lia|lia|]|].
      * intros j Hj. destruct (Nat.eq_dec j a) as [->|Hne].
        -- destruct (Hend x) as (w & w' & Hst & Hw & Hx); [left; auto|]. exists w'. split.
           ++ apply (rf_step c flag J D _ a w w' Hfi1 Hw Hst).
           ++ intros T. apply (T a x (le_n _)); auto. rewrite En. left. auto.
        -- destruct (Hg j ltac:(lia)) as (w & W1 & W2). exists w. destruct Hm as (Hm & _).
           rewrite !Hm by lia. auto.
      * intros (r' & st') (H1 & H2 & H3). cbn [fst snd] in *. split; auto. split; [congruence|auto].
Qed.

Lemma grows_size D f : finv c flag J D f -> (forall j, 1 <= j < D -> grows f j) ->
  forall n, 1 <= n <= D -> n <= S (size c f n).
Proof.
  intros Hfi Hg. induction n as [|n IH]; intros Hn1; [lia|]. destruct (Nat.eq_dec n 0) as [->|Hn0]; [lia|].
  destruct (Hg n ltac:(lia)) as (w & W1 & W2).
  assert (size c f n < size c f (S n)).
  { apply (size_lt c flag J D D f f (S n) n w Hfi Hfi); auto. intros u. apply rf_mono. lia. }
  assert (n <= S (size c f n)) by (apply IH; lia). lia.
Qed.

(** The frame before an empty one is inductive. *)
Lemma empty_frame_inductive D f k : finv c flag J D f -> 1 <= k < D -> nth k f [] = [] ->
  forall w w', steps c w w' -> rf f k w -> rf f k w'.
Proof.
  intros Hfi Hk Hempty w w' Hst Hw j q Hj Hq. destruct (Nat.eq_dec j k) as [->|Hne].
  - rewrite Hempty in Hq. elim Hq.
  - assert (X : rf f (S k) w').
    { apply (rf_step c flag J D f k w w' Hfi); auto. apply rk_rf; [lia|auto]. }
    apply (X j q); [lia|auto].
Qed.

End Steps.
