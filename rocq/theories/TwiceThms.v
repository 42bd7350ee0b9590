(** Calling [prove] a second time on the same object. *)
From Coq Require Import Permutation.
From Verif Require Import Base Formulas FormulaLogic Aig Fsts Solvers Ic3 Pdr Brute Spec SpecAig SpecFsts SpecAlg Tac Plain
  FormulasFacts LogicFacts AigFacts AigThms FstsFacts FstsSem FstsThms StateFacts BruteFacts Ic3Core QueryFacts Ic3Thms
  PdrCore PdrQuery PdrSteps PdrThms ProverThms.
Open Scope nat_scope.

(* ------------------------------------------------------------------------ PDR *)

Section Lengths.
Variables (b : build) (R : Random) (SS : StatefulSolver) (s : FSTS).

(** Same number of frames and of solvers. *)
Definition same_size (st st' : PdrState SS) : Prop :=
  length (pdr_f st') = length (pdr_f st) /\ length (pdr_notp st') = length (pdr_notp st).

Lemma same_size_refl st : same_size st st. Proof. split; reflexivity. Qed.
Lemma same_size_trans x y z : same_size x y -> same_size y z -> same_size x z.
Proof. unfold same_size. intuition congruence. Qed.

Ltac sizes := unfold same_size in *; cbn [with_f with_notp with_ri with_rit with_cut_pred with_cut_bad with_draws
  pdr_f pdr_notp fst snd] in *; rewrite ?set_nth_length in *; intuition (congruence || lia).
Ltac peel H :=
  repeat match type of H with
  | bind ?m _ = Ok _ => let x := fresh "x" in let E := fresh "E" in apply bind_ok in H; destruct H as (x & E & H)
  | (let '(_, _) := ?x in _) = Ok _ => destruct x
  | match ?x with _ => _ end = Ok _ => let E := fresh "E" in destruct x eqn:E; try discriminate H
  | Ok _ = Ok _ => injection H as H; subst
  end.

Lemma bad_cube_size st o st' : z_get_bad_cube b SS s st = Ok (o, st') -> same_size st st'.
Proof. unfold z_get_bad_cube. intros H. peel H; sizes. Qed.

Lemma is_blocked_size t st r st' : is_blocked SS t st = Ok (r, st') -> same_size st st'.
Proof. unfold is_blocked, z_is_blocked. intros H. peel H; sizes. Qed.

Lemma relative_size t p st r st' : z_solve_relative b SS s t p st = Ok (r, st') -> same_size st st'.
Proof. unfold z_solve_relative. intros H. peel H; sizes. Qed.

Lemma foldM_size {A} (f : PdrState SS -> A -> res (PdrState SS)) : 
  (forall st x st', f st x = Ok st' -> same_size st st') ->
  forall l st st', foldM f l st = Ok st' -> same_size st st'.
Proof.
  intros Hf. induction l as [|x l IH]; intros st st' H; cbn [foldM] in H; [inv H; apply same_size_refl|].
  peel H. eapply same_size_trans; eauto.
Qed.

Lemma add_solvers_size cnf st i st' : add_to_solvers SS cnf st i = Ok st' -> same_size st st'.
Proof. unfold add_to_solvers. intros H. peel H; sizes. Qed.

Lemma block_size t st st' : z_block_cube_in_solver b SS t st = Ok st' -> same_size st st'.
Proof.
  unfold z_block_cube_in_solver. intros H. peel H;
    (eapply foldM_size; [|exact H]; intros; eapply add_solvers_size; eauto).
Qed.

Lemma foldM_length {A B} (f : list A -> B -> res (list A)) :
  (forall l x l', f l x = Ok l' -> length l' = length l) ->
  forall xs l l', foldM f xs l = Ok l' -> length l' = length l.
Proof.
  intros Hf. induction xs as [|x xs IH]; intros l l' H; cbn [foldM] in H; [inv H; auto|].
  peel H. rewrite (IH _ _ H). eauto.
Qed.

Lemma add_blocked_size t st st' : add_blocked_cube b SS t st = Ok st' -> same_size st st'.
Proof.
  unfold add_blocked_cube. intros H. peel H. apply block_size in H.
  apply foldM_length in E1; [sizes|]. intros l y l' X. peel X. apply set_nth_length.
Qed.

Lemma generalize_loop_size frame : forall fuel lits j st r st',
  pdr_generalize_loop b SS s fuel frame lits j st = Ok (r, st') -> same_size st st'.
Proof.
  induction fuel as [|fuel IH]; intros lits j st r st' H; cbn [pdr_generalize_loop] in H.
  - peel H. apply same_size_refl.
  - destruct (j <? length lits); [|peel H; apply same_size_refl].
    apply bind_ok in H. destruct H as ((x & sh) & E1 & H).
    apply bind_ok in H. destruct H as ((d & st1) & E2 & H).
    assert (S1 : same_size st st1).
    { destruct (is_cube_initial s (t_cube (mkTCube (cube_new sh) frame))).
      - inv E2. apply same_size_refl.
      - apply bind_ok in E2. destruct E2 as ((y & st2) & E2 & E3). inv E3. eapply relative_size; eauto. }
    eapply same_size_trans; [exact S1|]. destruct d; [eapply IH; eauto|].
    apply bind_ok in H. destruct H as (y & _ & H). eapply IH; eauto.
Qed.

Lemma generalize_size t st r st' : pdr_generalize b R SS s t st = Ok (r, st') -> same_size st st'.
Proof.
  unfold pdr_generalize. intros H. apply bind_ok in H. destruct H as ((l & st1) & E & H). inv H.
  apply generalize_loop_size in E. sizes.
Qed.

Lemma push_forward_size bound : forall fuel z n st r st',
  push_forward b SS s fuel bound z n st = Ok (r, st') -> same_size st st'.
Proof.
  induction fuel as [|fuel IH]; intros z n st r st' H; cbn [push_forward] in H.
  - peel H. apply same_size_refl.
  - destruct (n <? bound); [|peel H; apply same_size_refl].
    apply bind_ok in H. destruct H as (z' & E1 & H). apply bind_ok in H. destruct H as ((p & st1) & E2 & H).
    apply relative_size in E2. eapply same_size_trans; [exact E2|].
    destruct (is_solve_relative_un_sat p); [|inv H; apply same_size_refl].
    destruct (t_frame p); try discriminate. eapply IH; eauto.
Qed.

Lemma rec_block_size : forall fuel q st r st',
  rec_block_loop b R SS s fuel q st = Ok (r, st') -> same_size st st'.
Proof.
  induction fuel as [|fuel IH]; intros q st r st' H; cbn [rec_block_loop] in H;
    (destruct q as [|e q]; [inv H; apply same_size_refl|]); [discriminate|].
  apply bind_ok in H. destruct H as (((t & n) & q') & E1 & H).
  set (st0 := with_draws SS st (S (pdr_draws st))) in *.
  assert (S0 : same_size st st0) by sizes.
  eapply same_size_trans; [exact S0|]. clear S0.
  destruct (t_frame t) as [| |[|sf]]; try discriminate; [inv H; apply same_size_refl|].
  apply bind_ok in H. destruct H as ((bl & st1) & E2 & H). apply is_blocked_size in E2.
  eapply same_size_trans; [exact E2|]. destruct bl; [eapply IH; eauto|].
  apply bind_ok in H. destruct H as (u & _ & H). apply bind_ok in H. destruct H as ((z & st2) & E3 & H).
  apply relative_size in E3. eapply same_size_trans; [exact E3|].
  destruct (is_solve_relative_un_sat z); [|eapply IH; eauto].
  apply bind_ok in H. destruct H as ((z' & st3) & E4 & H). apply generalize_size in E4.
  eapply same_size_trans; [exact E4|]. destruct (t_frame z') as [| |zf]; try discriminate.
  apply bind_ok in H. destruct H as (d & _ & H). apply bind_ok in H. destruct H as (bd & _ & H).
  apply bind_ok in H. destruct H as ((z2 & st4) & E5 & H). apply push_forward_size in E5.
  eapply same_size_trans; [exact E5|].
  apply bind_ok in H. destruct H as (st5 & E6 & H). apply add_blocked_size in E6.
  eapply same_size_trans; [exact E6|]. destruct (S sf <? d); [|eapply IH; eauto].
  apply bind_ok in H. destruct H as (nx & _ & H). eapply IH; eauto.
Qed.

Lemma propagate_cubes_size k : forall fuel i st st', propagate_cubes b SS s fuel k i st = Ok st' -> same_size st st'.
Proof.
  induction fuel as [|fuel IH]; intros i st st' H; cbn [propagate_cubes] in H;
    apply bind_ok in H; destruct H as (cs & _ & H).
  - peel H. apply same_size_refl.
  - destruct (i <? length cs); [|inv H; apply same_size_refl].
    apply bind_ok in H. destruct H as (x & _ & H). apply bind_ok in H. destruct H as ((t & st1) & E & H).
    apply relative_size in E. eapply same_size_trans; [exact E|].
    destruct (is_solve_relative_un_sat t); [|eapply IH; eauto].
    apply bind_ok in H. destruct H as (st2 & E2 & H). apply add_blocked_size in E2.
    eapply same_size_trans; eauto.
Qed.

Lemma propagate_size : forall frames st r st', Pdr.propagate_frames b SS s frames st = Ok (r, st') -> same_size st st'.
Proof.
  induction frames as [|k rest IH]; intros st r st' H; cbn [Pdr.propagate_frames] in H; [inv H; apply same_size_refl|].
  apply bind_ok in H. destruct H as (cs & _ & H). apply bind_ok in H. destruct H as (st1 & E & H).
  apply propagate_cubes_size in E. eapply same_size_trans; [exact E|].
  apply bind_ok in H. destruct H as (cs' & _ & H). destruct cs'; [inv H; apply same_size_refl|]. eapply IH; eauto.
Qed.

Lemma swap_length {A} (l : list A) i j l' : swap l i j = Ok l' -> length l' = length l.
Proof. unfold swap. intros H. peel H. rewrite !set_nth_length. reflexivity. Qed.

Lemma new_frame_size st st' : new_frame b SS s st = Ok st' ->
  length (pdr_f st') = S (length (pdr_f st)) /\ length (pdr_notp st') = S (length (pdr_notp st)).
Proof.
  unfold new_frame, z_new_frame. intros H. apply bind_ok in H. destruct H as (m & _ & H).
  apply bind_ok in H. destruct H as (f & E & H). apply swap_length in E. rewrite app_length in E. cbn [length] in E.
  apply bind_ok in H. destruct H as (u & _ & H). apply bind_ok in H. destruct H as (st1 & E1 & H).
  apply bind_ok in H. destruct H as (u' & _ & H). inv H. cbn [with_f pdr_notp] in E1.
  destruct (pdr_notp st) as [|x l] eqn:En; peel E1;
    cbn [with_f with_notp with_ri with_rit pdr_f pdr_notp]; rewrite ?app_length, ?En; cbn [length app];
    rewrite ?app_length; cbn [length]; lia.
Qed.

(** One frame more than solvers. *)
Definition one_more (st : PdrState SS) : Prop := length (pdr_f st) = S (length (pdr_notp st)).

Lemma one_more_same st st' : one_more st -> same_size st st' -> one_more st'.
Proof. unfold one_more, same_size. lia. Qed.

Lemma pdr_loop_size inner : forall outer st r st', one_more st ->
  pdr_loop b R SS s inner outer st = Ok (r, st') -> one_more st'.
Proof.
  induction outer as [|outer IH]; intros st r st' Hs H; cbn [pdr_loop] in H; [discriminate|].
  apply bind_ok in H. destruct H as ((o & st1) & E & H). apply bad_cube_size in E.
  pose proof (one_more_same _ _ Hs E) as H1. destruct o as [z|].
  - apply bind_ok in H. destruct H as (d & _ & H). apply bind_ok in H. destruct H as ((bl & st2) & E2 & H).
    unfold rec_block_cube in E2. cbn [t_frame] in E2. apply rec_block_size in E2.
    pose proof (one_more_same _ _ H1 E2) as H2. destruct bl; [eapply IH; [exact H2|exact H]|].
    apply bind_ok in H. destruct H as (d2 & _ & H). apply bind_ok in H. destruct H as (d3 & _ & H). inv H. auto.
  - apply bind_ok in H. destruct H as (st2 & E2 & H). apply new_frame_size in E2.
    apply bind_ok in H. destruct H as ((p & st3) & E3 & H).
    unfold propagate_blocked_cubes in E3. apply bind_ok in E3. destruct E3 as (d & _ & E3).
    apply propagate_size in E3. assert (H2 : one_more st2) by (unfold one_more in *; lia).
    pose proof (one_more_same _ _ H2 E3) as H3. destruct p as [i|]; [|eapply IH; eauto].
    apply bind_ok in H. destruct H as (inv0 & _ & H). inv H. auto.
Qed.

(** After a call that returned the next one cannot return. *)
Lemma pdr_second fuel st r st' : one_more st -> pdr_prove b R SS s fuel st <> Ok (r, st').
Proof.
  intros Hs H. unfold pdr_prove in H. apply bind_ok in H. destruct H as (st1 & E & H).
  apply new_frame_size in E. cbn [with_f pdr_f pdr_notp] in E. rewrite app_length in E. cbn [length] in E.
  destruct fuel as [|fuel]; [discriminate|]. cbn [pdr_loop] in H.
  apply bind_ok in H. destruct H as (x & E2 & _). unfold z_get_bad_cube, pdr_depth, nat_sub in E2.
  unfold one_more in Hs.
  replace (2 <=? length (pdr_f st1)) with true in E2 by (symmetry; apply Nat.leb_le; lia). cbn [bind] in E2.
  apply bind_ok in E2. destruct E2 as (y & E2 & _). unfold indexn in E2.
  destruct (nth_error (pdr_notp st1) (length (pdr_f st1) - 2)) eqn:En; [|discriminate].
  assert (length (pdr_f st1) - 2 < length (pdr_notp st1)) by (apply nth_error_Some; congruence). lia.
Qed.

Lemma pdr_never_twice fuel r : pdr_twice_plain b R SS fuel s <> Ok r.
Proof.
  intros H. unfold pdr_twice_plain in H. apply bind_ok in H. destruct H as ((r1 & st1) & E & H).
  apply bind_ok in H. destruct H as ((r2 & st2) & E2 & _). revert E2. apply pdr_second.
  unfold pdr_prove in E. apply bind_ok in E. destruct E as (st0 & E0 & E). apply new_frame_size in E0.
  cbn [with_f pdr_new pdr_f pdr_notp app length] in E0. eapply pdr_loop_size; [|exact E]. unfold one_more. lia.
Qed.
End Lengths.

Lemma bind_no_fuel {A B} (m : res A) (f : A -> res B) : m <> OutOfFuel -> (forall x, m = Ok x -> f x <> OutOfFuel) ->
  bind m f <> OutOfFuel.
Proof. destruct m; cbn; auto; congruence. Qed.

Lemma indexn_no_fuel {A} (l : list A) i : indexn l i <> OutOfFuel.
Proof. unfold indexn, unwrap. destruct (nth_error l i); congruence. Qed.

Lemma debug_no_fuel b x : debug_assert b x <> OutOfFuel.
Proof. destruct b, x; cbn; congruence. Qed.

Lemma lengths_no_fuel b SS n (st : PdrState SS) : solver_lengths b SS n st <> OutOfFuel.
Proof.
  unfold solver_lengths. apply bind_no_fuel; [apply debug_no_fuel|]. intros _ _.
  apply bind_no_fuel; [apply debug_no_fuel|]. intros _ _. apply debug_no_fuel.
Qed.

(** With a correct solver the second call panics. *)
Lemma pdr_second_panics c flag s b : system_of b c flag s -> numbering_fits c flag ->
  forall SS, stateful_correct SS -> forall R fuel r,
  pdr_plain b R SS fuel s = Ok r -> pdr_twice_plain b R SS fuel s = Panic.
Proof.
  intros Hsys Hf SS HS R fuel r H. unfold pdr_plain in H. apply bind_ok in H. destruct H as ((r1 & st1) & E & _).
  unfold pdr_twice_plain. rewrite E. cbn [bind].
  assert (H1 : one_more SS st1 /\ fuel <> 0).
  { unfold pdr_prove in E. apply bind_ok in E. destruct E as (st0 & E0 & E). apply new_frame_size in E0.
    cbn [with_f pdr_new pdr_f pdr_notp app length] in E0.
    assert (H0 : one_more SS st0) by (unfold one_more; lia).
    split; [eapply pdr_loop_size; eauto|]. intros ->; discriminate E. }
  destruct H1 as (H1 & H3).
  destruct (system_encodes _ _ _ _ Hsys (or_intror Hf)) as (Hwf & Hn & He).
  enough (X : pdr_prove b R SS s fuel st1 = Panic) by (rewrite X; reflexivity).
  unfold pdr_prove. destruct (new_frame b SS s (with_f SS st1 (pdr_f st1 ++ [[]]))) as [st2| |] eqn:E2.
  - cbn [bind]. apply new_frame_size in E2. cbn [with_f pdr_f pdr_notp] in E2. rewrite app_length in E2. cbn [length] in E2.
    unfold one_more in H1. destruct fuel as [|fuel]; [congruence|]. cbn [pdr_loop]. unfold z_get_bad_cube, pdr_depth, nat_sub.
    replace (2 <=? length (pdr_f st2)) with true by (symmetry; apply Nat.leb_le; lia). cbn [bind].
    unfold indexn. rewrite (proj2 (nth_error_None (pdr_notp st2) (length (pdr_f st2) - 2))) by lia. reflexivity.
  - reflexivity.
  - exfalso. revert E2. unfold new_frame, z_new_frame.
    assert (NF : forall base, cnf_legal base -> api_cnf base -> solver_with SS base <> OutOfFuel).
    { intros base B1 B2. destruct (holds_new SS HS base [] 0) as (x & Ex & _); auto; [|congruence].
      intros a j q _ Hq. destruct j; destruct Hq. }
    apply bind_no_fuel; [unfold nat_sub; destruct (1 <=? _); congruence|]. intros m _.
    apply bind_no_fuel; [unfold swap; apply bind_no_fuel; [apply indexn_no_fuel|]; intros; apply bind_no_fuel;
       [apply indexn_no_fuel|congruence]|]. intros f _.
    apply bind_no_fuel; [apply lengths_no_fuel|]. intros _ _.
    destruct (base_fine c flag s Hwf Hn He 0) as ((B1 & B2) & (B3 & B4) & (B5 & B6)).
    destruct (base_fine c flag s Hwf Hn He 1) as ((C1 & C2) & (C3 & C4) & (C5 & C6)).
    unfold notp_base, ri_base, rit_base in *. cbn [Nat.eqb] in *.
    apply bind_no_fuel.
    + cbn [with_f pdr_notp]. destruct (pdr_notp st1).
      * apply bind_no_fuel; [apply NF; auto|]. intros a _. apply bind_no_fuel; [apply NF; auto|]. intros b0 _.
        apply bind_no_fuel; [apply NF; auto|]. congruence.
      * apply bind_no_fuel; [apply NF; auto|]. intros a _. apply bind_no_fuel; [apply NF; auto|]. congruence.
    + intros st' _. apply bind_no_fuel; [apply lengths_no_fuel|]. congruence.
Qed.

(* ------------------------------------------------------------------------ IC3 *)

Section Ic3Twice.
Variables (c : circuit) (flag : bool) (s : FSTS).
Hypothesis Hwf : circuit_wf c.
Hypothesis Hn : numbered c flag.
Hypothesis He : encodes c flag s.
Variables (b : build) (R : Random) (O : Ic3Ops) (good : ox O -> Prop).
Hypothesis HR : random_ok R.
Hypothesis HO : ops_ok c flag s O good.

Definition right_result (r : ProofResult) : Prop := result_ok c flag s r /\
  (forall inv, r = Proof inv -> forall w, wires_ok c w -> initial_values c w -> ~ is_bad c flag w).

(** Two calls starting with empty frames. *)
Definition two_calls (fuel : nat) (st : Ic3State O) : res (ProofResult * ProofResult) :=
  '(r1, st) <- ic3_prove b R O s fuel st ;;
  '(r2, _) <- ic3_prove b R O s fuel st ;;
  Ok (r1, r2).

Lemma two_calls_ok fuel st : good (st_ops st) -> o_clauses O (st_ops st) = [] ->
  b = Release \/ ~ safe_before c flag 2 ->
  post (two_calls fuel st) (overlong c flag) (fuel <= states c * (states c + 3))
    (fun r => right_result (fst r) /\ right_result (snd r)).
Proof.
  intros Hg Hnil Hcase. unfold two_calls. eapply post_bind.
  { apply (prove_ok c flag s Hwf Hn He b R O good HR HO fuel st Hg); [rewrite Hnil; apply frames_ok_nil|auto]. }
  intros (r1 & st1) (H1 & Hg1 & Hf1 & Hsame & _ & H2). cbn [fst snd] in *. eapply post_bind.
  { apply (prove_ok c flag s Hwf Hn He b R O good HR HO fuel st1 Hg1); [exact Hf1|].
    intros Hb. destruct Hcase as [Hr|Hns]; [congruence|]. rewrite Hsame by auto. auto. }
  intros (r2 & st2) (H3 & _ & _ & _ & _ & H4). cbn [fst snd post] in *. split; split; auto.
Qed.

(** The length check of the main loop fails if frames are left from an earlier call. *)
Lemma second_panics fuel st : b = Debug -> good (st_ops st) -> o_clauses O (st_ops st) <> [] ->
  safe_before c flag 2 -> fuel <> 0 -> ic3_prove b R O s fuel st = Panic.
Proof.
  intros Hb Hg Hne Hsafe Hfuel. unfold ic3_prove.
  destruct (op_okay O _ st _ (ok_bad_0 _ _ _ _ _ HO (st_ops st) Hg)) as ((r0 & st1) & E0 & (Hg1 & Ec1 & H0) & _).
  cbn [fst snd] in *. rewrite E0. cbn [bind]. destruct r0 as [|asg].
  2:{ destruct H0 as (w & H1 & H2 & H3). destruct (bad_at_0 c flag Hwf w H1 H2 H3) as (r & Hr & Hbd).
      elim (Hsafe r Hr 0); auto; lia. }
  destruct (op_okay O _ st1 _ (ok_bad_1 _ _ _ _ _ HO (st_ops st1) Hg1)) as ((r1 & st2) & E1 & (Hg2 & Ec2 & H1) & _).
  cbn [fst snd] in *. rewrite E1. cbn [bind]. destruct r1 as [|asg].
  2:{ destruct H1 as (w & w' & A1 & A3 & A4). destruct (bad_at_1 c flag Hwf w w' A1 A3 A4) as (r & Hr & Hbd).
      elim (Hsafe r Hr 1); auto; lia. }
  unfold op_ at 1. destruct (ok_push _ _ _ _ _ HO (st_ops st2) Hg2) as (x & Ex & Hgx & Ecx).
  rewrite Ex. cbn [bind]. unfold op_ at 1. cbn [st_ops].
  destruct (ok_push _ _ _ _ _ HO x Hgx) as (x' & Ex' & Hgx' & Ecx'). rewrite Ex'. cbn [bind].
  destruct fuel as [|fuel]; [congruence|]. cbn [prove_loop]. unfold op_ at 1. cbn [st_ops].
  destruct (ok_push _ _ _ _ _ HO x' Hgx') as (x2 & Ex2 & Hgx2 & Ecx2). rewrite Ex2. cbn [bind st_ops].
  rewrite Hb, Ecx2, Ecx', Ecx, Ec2, Ec1, !app_length. cbn [length debug_assert].
  destruct (o_clauses O (st_ops st)) as [|f l]; [congruence|]. cbn [length].
  replace (S (length l) + 1 + 1 + 1 =? 1 + 2) with false by (symmetry; apply Nat.eqb_neq; lia). reflexivity.
Qed.

Lemma two_calls_panic fuel st r st' : b = Debug -> good (st_ops st) -> o_clauses O (st_ops st) = [] ->
  safe_before c flag 2 -> ic3_prove b R O s fuel st = Ok (r, st') -> two_calls fuel st = Panic.
Proof.
  intros Hb Hg Hnil Hsafe E. unfold two_calls.
  pose proof (prove_ok c flag s Hwf Hn He b R O good HR HO fuel st Hg) as H. rewrite Hnil in H.
  specialize (H (frames_ok_nil c flag) (fun _ => eq_refl)). rewrite E in H.
  destruct H as (_ & Hg1 & _ & _ & Hne & _). cbn [snd] in *. rewrite E. cbn [bind].
  rewrite (second_panics fuel st' Hb Hg1 (Hne Hsafe) Hsafe); [reflexivity|].
  intros ->. revert E. unfold ic3_prove.
  destruct (op_okay O _ st _ (ok_bad_0 _ _ _ _ _ HO (st_ops st) Hg)) as ((r0 & st1) & E0 & (Hg1' & Ec1 & H0) & _).
  cbn [fst snd] in *. rewrite E0. cbn [bind]. destruct r0 as [|asg].
  2:{ destruct H0 as (w & H1 & H2 & H3). destruct (bad_at_0 c flag Hwf w H1 H2 H3) as (r' & Hr & Hbd).
      elim (Hsafe r' Hr 0); auto; lia. }
  destruct (op_okay O _ st1 _ (ok_bad_1 _ _ _ _ _ HO (st_ops st1) Hg1')) as ((r1 & st2) & E1 & (Hg2 & Ec2 & H1) & _).
  cbn [fst snd] in *. rewrite E1. cbn [bind]. destruct r1 as [|asg].
  2:{ destruct H1 as (w & w' & A1 & A3 & A4). destruct (bad_at_1 c flag Hwf w w' A1 A3 A4) as (r' & Hr & Hbd).
      elim (Hsafe r' Hr 1); auto; lia. }
  unfold op_. destruct (ok_push _ _ _ _ _ HO (st_ops st2) Hg2) as (x & Ex & Hgx & Ecx).
  rewrite Ex. cbn [bind st_ops]. destruct (ok_push _ _ _ _ _ HO x Hgx) as (x' & Ex' & _). rewrite Ex'.
  cbn [bind prove_loop]. discriminate.
Qed.

(** A call that finds a bad state within one step asks at most two questions. *)
Lemma early_calls (calls : ox O -> nat) fuel st r st' :
  (forall x q x', o_bad_in_0 O x = Ok (q, x') -> calls x' = S (calls x)) ->
  (forall x q x', o_bad_in_1 O x = Ok (q, x') -> calls x' = S (calls x)) ->
  good (st_ops st) -> ~ safe_before c flag 2 -> ic3_prove b R O s fuel st = Ok (r, st') ->
  good (st_ops st') /\ calls (st_ops st') <= calls (st_ops st) + 2.
Proof.
  intros Hc0 Hc1 Hg Hns. unfold ic3_prove.
  destruct (ok_bad_0 _ _ _ _ _ HO (st_ops st) Hg) as ((r0 & x0) & E0 & Hg0 & _ & H0). cbn [fst snd] in *.
  unfold op at 1. rewrite E0. cbn [bind]. apply Hc0 in E0.
  destruct r0 as [|asg]; [|intros [= <- <-]; cbn [st_ops]; split; auto; lia].
  unfold op at 1. cbn [st_ops].
  destruct (ok_bad_1 _ _ _ _ _ HO x0 Hg0) as ((r1 & x1) & E1 & Hg1 & _ & H1). cbn [fst snd] in *.
  rewrite E1. cbn [bind]. apply Hc1 in E1.
  destruct r1 as [|asg]; [|intros [= <- <-]; cbn [st_ops]; split; auto; lia].
  elim Hns. intros w Hw t Ht Hb. destruct t as [|[|t]]; [| |lia].
  - apply (H0 (w 0)); auto; apply Hw.
  - apply (H1 (w 0) (w 1)); [split; apply Hw|apply Hw|]. exists (w 1). split; [apply Hw|]. split; auto.
    apply same_latches_refl.
Qed.
End Ic3Twice.

Lemma right_verdict c flag s r : right_result c flag s r ->
  (verdict_proof r <-> safe c flag) /\ forall d, r = ProofCTX d -> safe_before c flag (N.to_nat d).
Proof.
  intros (Hr & Hp). destruct r as [inv|d]; cbn in Hr.
  - split; [|discriminate]. split; [|intros _; exists inv; reflexivity]. intros _.
    apply (proof_safe c flag s (Hp inv eq_refl) inv Hr).
  - destruct Hr as ((w & t & W1 & W2) & Hr & _). split; [|intros d' [= <-]; auto].
    split; [intros (inv & E); discriminate|]. intros Hs. elim (Hs w W1 t W2).
Qed.

Lemma post_both c flag s fuel m : circuit_wf c ->
  post m (overlong c flag) (fuel <= states c * (states c + 3))
    (fun r => right_result c flag s (fst r) /\ right_result c flag s (snd r)) ->
  both_right c flag fuel m.
Proof.
  intros Hwf H. split; [|split].
  - intros Hfu ->. cbn in H. unfold enough_fuel in Hfu. unfold states in H. lia.
  - intros Hd ->. elim (depth_not_overlong c flag Hwf Hd H).
  - intros r1 r2 -> r Hr. destruct H as (H1 & H2). cbn [fst snd] in *. apply (right_verdict c flag s).
    destruct Hr as [->| ->]; auto.
Qed.

Lemma stateless_twice_right b c flag s R T fuel : system_of b c flag s -> numbering_fits c flag ->
  random_ok R -> solver_correct_below 2147483647 T -> solver_total_below 2147483647 T -> b = Release \/ ~ safe_before c flag 2 ->
  both_right c flag fuel (stateless_twice_plain b R T fuel s).
Proof.
  intros Hs Hf HR HT HTd Hc. destruct (system_encodes _ _ _ _ Hs (or_intror Hf)) as (Hwf & Hn & He).
  apply (post_both c flag s); auto. unfold stateless_twice_plain. rewrite (cache_ok c flag s b Hf Hwf He). cbn [bind].
  apply (two_calls_ok c flag s Hwf Hn He b R _ _ HR (sl_ops_ok c flag s b Hf Hwf He T HT HTd)); auto.
  constructor.
Qed.

Lemma stateless_twice_panics b c flag s R T fuel r : system_of b c flag s -> numbering_fits c flag ->
  random_ok R -> solver_correct_below 2147483647 T -> solver_total_below 2147483647 T -> b = Debug -> safe_before c flag 2 ->
  stateless_plain b R T fuel s = Ok r -> stateless_twice_plain b R T fuel s = Panic.
Proof.
  intros Hs Hf HR HT HTd Hb Hc. destruct (system_encodes _ _ _ _ Hs (or_intror Hf)) as (Hwf & Hn & He).
  unfold stateless_plain, stateless_twice_plain. rewrite (cache_ok c flag s b Hf Hwf He). cbn [bind]. intros E.
  apply bind_ok in E. destruct E as ((r1 & st1) & E & _).
  eapply (two_calls_panic c flag s Hwf Hn He b R _ _ HR (sl_ops_ok c flag s b Hf Hwf He T HT HTd));
    [auto| |reflexivity|auto|exact E]. constructor.
Qed.

Lemma stateful_twice_right b c flag s R SS fuel : system_of b c flag s -> numbering_fits c flag ->
  random_ok R -> stateful_correct SS -> b = Release \/ ~ safe_before c flag 2 ->
  both_right c flag fuel (stateful_twice_plain b R SS fuel s).
Proof.
  intros Hs Hf HR HS Hc. destruct (system_encodes _ _ _ _ Hs (or_intror Hf)) as (Hwf & Hn & He).
  apply (post_both c flag s); auto. unfold stateful_twice_plain. rewrite (cache_ok c flag s b Hf Hwf He). cbn [bind].
  eapply bind_okay; [apply (sf_new_ok c flag s Hn He SS HS)|]. intros x (Hx & Ex).
  apply (two_calls_ok c flag s Hwf Hn He b R _ _ HR (sf_ops_ok c flag s b Hs Hf Hwf Hn He SS HS)); auto.
Qed.

Lemma stateful_twice_panics b c flag s R SS fuel r : system_of b c flag s -> numbering_fits c flag ->
  random_ok R -> stateful_correct SS -> b = Debug -> safe_before c flag 2 ->
  stateful_plain b R SS fuel s = Ok r -> stateful_twice_plain b R SS fuel s = Panic.
Proof.
  intros Hs Hf HR HS Hb Hc. destruct (system_encodes _ _ _ _ Hs (or_intror Hf)) as (Hwf & Hn & He).
  unfold stateful_plain, stateful_twice_plain. rewrite (cache_ok c flag s b Hf Hwf He). cbn [bind]. intros E.
  destruct (sf_new_ok c flag s Hn He SS HS) as (x & E0 & Hx & Ex). rewrite E0 in E |- *. cbn [bind] in *.
  apply bind_ok in E. destruct E as ((r1 & st1) & E & _).
  eapply (two_calls_panic c flag s Hwf Hn He b R _ _ HR (sf_ops_ok c flag s b Hs Hf Hwf Hn He SS HS));
    [auto| | |auto|exact E]; auto.
Qed.

(** The same for the provers with their statistics. *)
Lemma link_both b c flag fuel plain real :
  linked b plain real -> (forall r1 r2, b = Debug -> plain = Ok (r1, r2) -> real <> Panic) ->
  both_right c flag fuel plain -> both_right c flag fuel real.
Proof.
  intros Hl Hd (H1 & H2 & H3). split; [|split].
  - intros Hf E. apply (H1 Hf). eapply linked_fuel; eauto.
  - intros Hf E. destruct plain as [(r1 & r2)| |]; cbn in Hl; [|elim (H2 Hf eq_refl)|congruence].
    destruct Hl as [Hl|[Hb Hl]]; [congruence|]. apply (Hd r1 r2 Hb eq_refl E).
  - intros r1 r2 E. apply H3. eapply linked_ok; eauto.
Qed.

Lemma few_fit n b {A} (r : A) : n <= 4 -> counted_answer b (N.of_nat n) r <> Panic.
Proof. intros H. destruct b; [|discriminate]. cbn [counted_answer]. destruct (N.ltb_spec (N.of_nat n) 4294967296); [discriminate|lia]. Qed.

Lemma stateless_twice_both b c flag s R T fuel : system_of b c flag s -> numbering_fits c flag ->
  random_ok R -> solver_correct_below 2147483647 T -> solver_total_below 2147483647 T -> b = Release \/ ~ safe_before c flag 2 ->
  both_right c flag fuel (ic3_stateless_twice b R T fuel s).
Proof.
  intros Hs Hf HR HT HTd Hc. pose proof (stateless_twice_link b R T fuel s) as (Hl & Hrun).
  apply (link_both b c flag fuel _ _ Hl); [|apply stateless_twice_right; auto].
  intros r1 r2 Hb E. destruct Hc as [Hc|Hc]; [congruence|].
  destruct (Hrun _ E) as (n & En & ->). apply few_fit. clear Hl Hrun E.
  destruct (system_encodes _ _ _ _ Hs (or_intror Hf)) as (Hwf & Hn & He).
  unfold ic3_stateless_twice_run in En. rewrite (cache_ok c flag s b Hf Hwf He) in En. cbn [bind] in En.
  apply bind_ok in En. destruct En as ((q1 & st1) & E1 & En).
  apply bind_ok in En. destruct En as ((q2 & st2) & E2 & En). injection En as _ _ <-.
  pose proof (sl_ops_ok c flag s b Hf Hwf He T HT HTd) as HO.
  assert (C0 : forall f x q x', sl_sat_call T x f = Ok (q, x') -> sl_calls x' = S (sl_calls x)).
  { intros f x q x' H. unfold sl_sat_call in H. apply bind_ok in H. destruct H as (? & _ & H). injection H as _ <-. reflexivity. }
  destruct (early_calls c flag s b R _ _ HO sl_calls fuel (mkIc3State (O := sl_ops b T s (the_cache c s)) (mkSLState [] 0) 0) q1 st1 (fun x q x' => C0 _ x q x') (fun x q x' => C0 _ x q x'))
    as (G1 & N1); [constructor|auto|exact E1|].
  destruct (early_calls c flag s b R _ _ HO sl_calls fuel st1 q2 st2 (fun x q x' => C0 _ x q x') (fun x q x' => C0 _ x q x') G1 Hc E2)
    as (G2 & N2).
  cbn [st_ops sl_calls] in N1. lia.
Qed.

Lemma stateful_twice_both b c flag s R SS fuel : system_of b c flag s -> numbering_fits c flag ->
  random_ok R -> stateful_correct SS -> b = Release \/ ~ safe_before c flag 2 ->
  both_right c flag fuel (ic3_stateful_twice b R SS fuel s).
Proof.
  intros Hs Hf HR HS Hc. pose proof (stateful_twice_link b R SS fuel s) as (Hl & Hrun).
  apply (link_both b c flag fuel _ _ Hl); [|apply stateful_twice_right; auto].
  intros r1 r2 Hb E. destruct Hc as [Hc|Hc]; [congruence|].
  destruct (Hrun _ E) as (n & En & ->). apply few_fit. clear Hl Hrun E.
  destruct (system_encodes _ _ _ _ Hs (or_intror Hf)) as (Hwf & Hn & He).
  unfold ic3_stateful_twice_run in En. rewrite (cache_ok c flag s b Hf Hwf He) in En. cbn [bind] in En.
  destruct (sf_new_ok c flag s Hn He SS HS) as (x & E0 & Hx & Ex). rewrite E0 in En. cbn [bind] in En.
  apply bind_ok in En. destruct En as ((q1 & st1) & E1 & En).
  apply bind_ok in En. destruct En as ((q2 & st2) & E2 & En). injection En as _ _ <-.
  pose proof (sf_ops_ok c flag s b Hs Hf Hwf Hn He SS HS) as HO.
  assert (C0 : forall f x q x', sf_custom SS x f = Ok (q, x') -> sf_calls x' = S (sf_calls x)).
  { intros f y q y' H. unfold sf_custom in H. apply bind_ok in H. destruct H as (? & _ & H).
    apply bind_ok in H. destruct H as ((? & ?) & _ & H). injection H as _ <-. reflexivity. }
  destruct (early_calls c flag s b R _ _ HO sf_calls fuel (mkIc3State (O := sf_ops b SS s (the_cache c s)) x 0) q1 st1 (fun x q x' => C0 _ x q x') (fun x q x' => C0 _ x q x'))
    as (G1 & N1); [exact Hx|auto|exact E1|].
  destruct (early_calls c flag s b R _ _ HO sf_calls fuel st1 q2 st2 (fun x q x' => C0 _ x q x') (fun x q x' => C0 _ x q x') G1 Hc E2)
    as (G2 & N2).
  unfold sf_new in E0. apply bind_ok in E0. destruct E0 as (? & _ & E0). injection E0 as <-.
  cbn [st_ops sf_calls] in N1. lia.
Qed.

Lemma no_second_call : exists c flag s inv, system_of Debug c flag s /\ numbering_fits c flag /\
  bad_latches_read c flag /\ states_readable c flag /\
  ic3_stateless Debug no_random brute 100 s = Ok (Proof inv) /\
  ic3_stateless_twice Debug no_random brute 100 s = Panic /\
  ic3_stateful_twice Debug no_random brute_stateful 100 s = Panic /\
  pdr_twice Debug no_random brute_stateful 100 s = Panic.
Proof.
  exists differ_circuit, false.
  assert (Hl : bad_latches_read differ_circuit false).
  { intros l [<-|[]] (nx & r & j & Hj & Hv). destruct j as [|[|j]]; [discriminate Hv..|destruct j; discriminate Hj]. }
  assert (Hr : states_readable differ_circuit false).
  { right. right. left. exists 8%N. split; [left; reflexivity|]. exists 6%N, 4%N, 0. split; reflexivity. }
  system_case Debug differ_circuit. do 2 eexists. split; [exact Hs|]. split; [exact Hn|]. split; [exact Hl|].
  split; [exact Hr|]. split; [vm_compute; reflexivity|]. split; [vm_compute; reflexivity|].
  split; vm_compute; reflexivity.
Qed.
