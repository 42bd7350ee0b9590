(** PDR: what its frames and solvers hold, and what each of its questions and updates does. *)
From Coq Require Import Permutation.
From Verif Require Import Base Formulas FormulaLogic Aig Fsts Solvers Ic3 Pdr Brute Spec SpecAig SpecFsts SpecAlg Tac
  FormulasFacts LogicFacts AigFacts SimFacts AigThms FstsFacts FstsSem TagFacts FstsThms BmcThms BruteFacts
  StateFacts Ic3Core QueryFacts Ic3Thms.
Open Scope nat_scope.

(* ------------------------------------------------------------------- list lemmas *)

Lemma foldM_seq {A} (f : A -> nat -> res A) (P : nat -> A -> Prop) : forall n a x, P a x ->
  (forall i y, a <= i < a + n -> P i y -> okay (f y i) (P (S i))) ->
  okay (foldM f (seq a n) x) (P (a + n)).
Proof.
  induction n as [|n IH]; intros a x H Hs; cbn [seq foldM].
  - rewrite Nat.add_0_r. exists x. auto.
  - eapply okay_bind; [apply Hs; auto; lia|]. intros y Hy.
    replace (a + S n) with (S a + n) by lia. apply IH; auto. intros i z Hi. apply Hs. lia.
Qed.

Lemma firstn_set_nth {A} (l : list A) i x n : n <= i -> firstn n (set_nth l i x) = firstn n l.
Proof.
  revert i n. induction l as [|y l IH]; intros [|i] [|n] H; simpl; auto; try lia. f_equal. apply IH. lia.
Qed.

Lemma firstn_removelast {A} (l : list A) n : n < length l -> firstn n (removelast l) = firstn n l.
Proof.
  revert n. induction l as [|x l IH]; intros n H; [simpl in H; lia|]. destruct l as [|y l].
  - simpl in H. replace n with 0 by lia. reflexivity.
  - destruct n as [|n]; auto. cbn [removelast firstn]. f_equal. apply IH. simpl in *. lia.
Qed.

Lemma nth_error_firstn_lt {A} (l : list A) n k : k < n -> nth_error (firstn n l) k = nth_error l k.
Proof.
  revert n k. induction l as [|x l IH]; intros [|n] [|k] H; simpl; auto; try lia. apply IH. lia.
Qed.

Lemma nth_error_skipn {A} (l : list A) n k : nth_error (skipn n l) k = nth_error l (n + k).
Proof. revert l. induction n as [|n IH]; intros [|x l]; simpl; auto. destruct k; auto. Qed.

Lemma in_firstn_S {A} (l : list A) n x y : nth_error l n = Some x -> In y (firstn (S n) l) -> In y (firstn n l) \/ y = x.
Proof.
  revert n. induction l as [|z l IH]; intros [|n] E H; simpl in *; try discriminate.
  - injection E as ->. intuition.
  - destruct H as [->|H]; auto. destruct (IH n E H); auto.
Qed.

Lemma swap_remove_prefix {A} (l : list A) i : i < length l ->
  exists x r, swap_remove l i = Ok (x, r) /\ nth_error l i = Some x /\ Permutation l (x :: r) /\
    forall n, n <= i -> firstn n r = firstn n l.
Proof.
  intros H. destruct (swap_remove_ok l i H) as (x & r & E & Hp). exists x, r. split; auto.
  unfold swap_remove, indexn in E. destruct (nth_error l i) as [y|] eqn:Ey; [|apply nth_error_None in Ey; lia].
  cbn [unwrap bind] in E. injection E as -> <-. split; auto. split; auto.
  intros n Hn. rewrite firstn_removelast by (rewrite set_nth_length; lia). apply firstn_set_nth; auto.
Qed.

Lemma subsumes_spec q1 q2 : subsumes q1 q2 = true <-> (forall l, In l (cube_lits q1) -> In l (cube_lits q2)).
Proof.
  unfold subsumes, cube_iter. rewrite forallb_forall. split; intros H l Hl; specialize (H l Hl).
  - unfold set_mem in H. apply existsb_exists in H. destruct H as (x & Hx & E). apply N.eqb_eq in E. subst; auto.
  - unfold set_mem. apply existsb_exists. exists l. split; auto. apply N.eqb_refl.
Qed.

Lemma subsumes_true q1 q2 w : subsumes q1 q2 = true -> cube_true w q2 -> cube_true w q1.
Proof. rewrite subsumes_spec. intros H Hw l Hl. apply Hw; auto. Qed.

Lemma subsumes_refl q : subsumes q q = true.
Proof. apply subsumes_spec; auto. Qed.

(** Removal keeps exactly the cubes not subsumed, and a prefix without subsumed cubes. *)
Lemma remove_subsumed_ok q : forall fuel cubes i, length cubes <= fuel + i ->
  (forall x, In x (firstn i cubes) -> subsumes q x = false) ->
  okay (remove_subsumed fuel q cubes i) (fun r =>
    (forall x, In x r <-> In x cubes /\ subsumes q x = false) /\
    (forall n, i <= n -> (forall x, In x (firstn n cubes) -> subsumes q x = false) -> firstn n r = firstn n cubes) /\
    length r <= length cubes /\
    (forall x, In x cubes -> subsumes q x = true -> length r < length cubes)).
Proof.
  induction fuel as [|fuel IH]; intros cubes i Hl Hpre; cbn [remove_subsumed].
  all: destruct (Nat.ltb_spec i (length cubes)) as [Hi|Hi].
  - lia.
  - exists cubes. split; auto. rewrite firstn_all2 in Hpre by auto. split; [|split; [|split]]; auto.
    + intros x. split; [intros Hx; auto|tauto].
    + intros x Hx E. rewrite Hpre in E by auto. discriminate.
  - destruct (indexn_error cubes i Hi) as (x & Ex & E). rewrite E. cbn [bind].
    destruct (subsumes q x) eqn:Es.
    + destruct (swap_remove_prefix cubes i Hi) as (y & r & E2 & Ey & Hp & Hf). rewrite E2. cbn [bind].
      rewrite Ex in Ey. injection Ey as <-.
      pose proof (Permutation_length Hp) as Hlen. cbn [length] in Hlen.
      eapply okay_impl; [apply (IH r i)|].
      * lia.
      * intros z Hz. rewrite Hf in Hz by auto. auto.
      * intros r' (H1 & H2 & H3 & H4).
        assert (Hin : forall z, In z cubes <-> x = z \/ In z r).
        { intros z. split; intros Hz; [apply (Permutation_in _ Hp) in Hz; auto|].
          apply (Permutation_in _ (Permutation_sym Hp)). auto. }
        split; [|split; [|split]].
        -- intros z. rewrite H1, Hin. intuition congruence.
        -- intros n Hn Hz. destruct (Nat.le_gt_cases n i) as [Hni|Hni].
           ++ replace n with i in * by lia. rewrite H2; auto. intros z. rewrite Hf by auto. auto.
           ++ exfalso. specialize (Hz x). rewrite Hz in Es; [discriminate|].
              apply nth_error_In with i. rewrite nth_error_firstn_lt by auto. auto.
        -- lia.
        -- intros. lia.
    + assert (HS : forall y, In y (firstn (S i) cubes) -> subsumes q y = false).
      { intros y Hy. destruct (in_firstn_S _ _ _ _ Ex Hy) as [Hy'| ->]; auto. }
      eapply okay_impl; [apply (IH cubes (S i)); [lia|auto]|].
      intros r (H1 & H2 & H3 & H4). split; auto. split; [|split]; auto.
      intros n Hn Hz. destruct (Nat.eq_dec n i) as [->|Hne]; [|apply H2; auto; lia].
      pose proof (H2 (S i) (le_n _) HS) as E2. apply (f_equal (firstn i)) in E2.
      rewrite !firstn_firstn in E2. replace (Nat.min i (S i)) with i in E2 by lia. auto.
  - exists cubes. split; auto. rewrite firstn_all2 in Hpre by auto. split; [|split; [|split]]; auto.
    + intros x. split; [intros Hx; auto|tauto].
    + intros x Hx E. rewrite Hpre in E by auto. discriminate.
Qed.

(* ------------------------------------------------------------------------ frames *)

Section Frames.
(** [J]: no blocked cube contains an initial state. *)
Variables (c : circuit) (flag : bool) (J : Prop).

(** [w] satisfies no cube kept in frame [i] or later. *)
Definition rf (f : list (list Cube)) (i : nat) (w : valuation) : Prop :=
  forall j q, i <= j -> In q (nth j f []) -> ~ cube_true w q.
(** Frame [i] as a set of states. *)
Definition rk (f : list (list Cube)) (i : nat) (w : valuation) : Prop :=
  rf f i w /\ (i = 0 -> initial_values c w).

Definition state_like (q : Cube) : Prop := api_cube q /\ cube_vars (is_latch c) q.

(** [q] cannot be entered from frame [n - 1] except from itself. *)
Definition rel_ind (f : list (list Cube)) (n : nat) (q : Cube) : Prop :=
  (J -> forall w, initial_values c w -> ~ cube_true w q) /\
  (forall w w', steps c w w' -> rk f (n - 1) w -> ~ cube_true w q -> ~ cube_true w' q).
Definition blocked_from (f : list (list Cube)) (n : nat) (q : Cube) : Prop :=
  (J -> forall w, initial_values c w -> ~ cube_true w q) /\
  (forall w w', steps c w w' -> rk f (n - 1) w -> ~ cube_true w' q).

Record finv (D : nat) (f : list (list Cube)) : Prop := mkFinv {
  f_len : length f = D + 2;
  f_cube : forall j q, In q (nth j f []) -> 1 <= j <= D /\ state_like q /\ blocked_from f j q;
  f_safe : forall i w, i < D -> wires_ok c w -> rk f i w -> ~ is_bad c flag w }.

Lemma rf_mono f i j w : i <= j -> rf f i w -> rf f j w.
Proof. intros H Hw k q Hk. apply Hw. lia. Qed.
Lemma rk_mono f i j w : i <= j -> rk f i w -> rk f j w.
Proof. intros H (H1 & H2). split; [eapply rf_mono; eauto|]. intros ->. apply H2. lia. Qed.
Lemma rk_rf f i w : 1 <= i -> rk f i w <-> rf f i w.
Proof. intros H. split; [intros (X & _); auto|]. intros X. split; auto. lia. Qed.

Lemma rf_same D f i w w' : finv D f -> same_latches c w w' -> rf f i w -> rf f i w'.
Proof.
  intros Hf Hs Hw j q Hj Hq Ht. apply (Hw j q Hj Hq). destruct (f_cube _ _ Hf j q Hq) as (_ & (_ & V) & _).
  eapply latch_cube_same; [eauto| |exact Ht]. apply same_latches_sym; auto.
Qed.
Lemma rk_same D f i w w' : finv D f -> same_latches c w w' -> rk f i w -> rk f i w'.
Proof.
  intros Hf Hs (H1 & H2). split; [eapply rf_same; eauto|]. intros E. eapply initial_same; eauto.
Qed.

Lemma rf_init D f i w : J -> finv D f -> initial_values c w -> rf f i w.
Proof. intros HJ Hf Hi j q Hj Hq. apply (f_cube _ _ Hf j q Hq); auto. Qed.
Lemma rk_init D f i w : J -> finv D f -> initial_values c w -> rk f i w.
Proof. intros HJ Hf Hi. split; auto. eapply rf_init; eauto. Qed.

Lemma rf_step D f i w w' : finv D f -> rk f i w -> steps c w w' -> rf f (S i) w'.
Proof.
  intros Hf Hw Hst j q Hj Hq. destruct (f_cube _ _ Hf j q Hq) as (_ & _ & _ & H).
  apply (H w w' Hst). eapply rk_mono; [|exact Hw]. lia.
Qed.

Lemma run_frame D f w t : J -> finv D f -> run c w -> rk f t (w t).
Proof.
  intros HJ Hf Hr. induction t as [|t IH].
  - apply (rk_init D); auto. apply Hr.
  - apply rk_rf; [lia|]. apply (rf_step D f t (w t)); auto. split; apply Hr.
Qed.

Lemma frames_safe D f : J -> finv D f -> safe_before c flag D.
Proof.
  intros HJ Hf w Hr t Ht. apply (f_safe _ _ Hf t); auto; [apply Hr|]. eapply run_frame; eauto.
Qed.

Lemma nth_empty D f j : finv D f -> j = 0 \/ D < j -> nth j f [] = [].
Proof.
  intros Hf Hj. destruct (nth j f []) as [|q r] eqn:E; auto.
  destruct (f_cube _ _ Hf j q) as (H & _); [rewrite E; left; auto|lia].
Qed.

Lemma blocked_rel f n q : blocked_from f n q -> rel_ind f n q.
Proof. intros (H1 & H2). split; eauto. Qed.

(** A change of frames that adds [q] to frame [k] and removes what it subsumes. *)
Definition added (f f' : list (list Cube)) (k : nat) (q : Cube) : Prop :=
  length f' = length f /\
  forall j x, In x (nth j f' []) <->
    (In x (nth j f []) /\ (1 <= j <= k -> subsumes q x = false)) \/ (j = k /\ x = q).

Lemma added_rf f f' k q i w : added f f' k q -> i <> 0 \/ nth 0 f [] = [] ->
  rf f' i w <-> rf f i w /\ (i <= k -> ~ cube_true w q).
Proof.
  intros (_ & Ha) H0. split.
  - intros H. split.
    + intros j x Hj Hx Ht. destruct (Nat.eq_dec j 0) as [->|Hj0].
      { destruct H0 as [H0|H0]; [lia|]. rewrite H0 in Hx. elim Hx. }
      destruct (Nat.le_gt_cases j k) as [Hk|Hk].
      * destruct (subsumes q x) eqn:E.
        -- apply (H k q); [lia|apply Ha; auto|]. eapply subsumes_true; eauto.
        -- apply (H j x Hj); auto. apply Ha. left. auto.
      * apply (H j x Hj); auto. apply Ha. left. split; auto. lia.
    + intros Hi. apply (H k q Hi). apply Ha. auto.
  - intros (H1 & H2) j x Hj Hx. apply Ha in Hx. destruct Hx as [(Hx & _)|(-> & ->)]; eauto.
Qed.

Lemma added_finv D f f' k q : finv D f -> added f f' k q -> 1 <= k <= D -> state_like q ->
  rel_ind f k q -> finv D f'.
Proof.
  intros Hf Ha Hk Hq (Hi & Hr).
  assert (H0 : nth 0 f [] = []) by (apply (nth_empty D); auto).
  assert (Hrf : forall i w, rf f' i w <-> rf f i w /\ (i <= k -> ~ cube_true w q)).
  { intros i w. apply added_rf; auto. }
  assert (Hrk : forall i w, rk f' i w -> rk f i w).
  { intros i w (H1 & H2). apply Hrf in H1. split; [apply H1|auto]. }
  split.
  - destruct Ha as (-> & _). apply Hf.
  - intros j x Hx. destruct Ha as (_ & Ha). apply Ha in Hx. destruct Hx as [(Hx & _)|(-> & ->)].
    + destruct (f_cube _ _ Hf j x Hx) as (H1 & H2 & H3 & H4). split; auto. split; auto. split; eauto.
    + split; auto. split; auto. split; auto. intros w w' Hst Hw. apply (Hr w w' Hst); auto.
      destruct Hw as (Hw & _). apply Hrf in Hw. apply Hw. lia.
  - intros i w Hlt Hw Hk'. apply (f_safe _ _ Hf i); auto.
Qed.

(** Frame [i] as the formula PDR would print for it. *)
Definition rcnf (f : list (list Cube)) (i : nat) : CNF :=
  fold_left (fun acc q => cnf_add_clause acc (cube_not q)) (concat (skipn i f)) cnf_new.

Lemma fold_clauses_true a qs : forall acc,
  cnf_true a (fold_left (fun acc q => cnf_add_clause acc (cube_not q)) qs acc) <->
  cnf_true a acc /\ forall q, In q qs -> ~ cube_true a q.
Proof.
  induction qs as [|q qs IH]; intros acc; cbn [fold_left].
  - split; [intros H; split; auto; intros q []|tauto].
  - rewrite IH, cnf_add_clause_true, cube_not_true. simpl. split.
    + intros ((H1 & H2) & H3). split; auto. intros x [<-|Hx]; auto.
    + intros (H1 & H2). auto.
Qed.
Lemma fold_clauses_api qs : forall acc, api_cnf acc ->
  api_cnf (fold_left (fun acc q => cnf_add_clause acc (cube_not q)) qs acc).
Proof.
  induction qs as [|q qs IH]; intros acc H; cbn [fold_left]; auto. apply IH. apply api_cnf_add; auto.
  apply cube_not_api.
Qed.
Lemma fold_clauses_vars P qs : (forall q, In q qs -> cube_vars P q) -> forall acc, cnf_vars P acc ->
  cnf_vars P (fold_left (fun acc q => cnf_add_clause acc (cube_not q)) qs acc).
Proof.
  induction qs as [|q qs IH]; intros Hq acc H; cbn [fold_left]; auto. apply IH; [intros x Hx; apply Hq; right; auto|].
  apply cnf_add_vars; auto. apply cube_not_vars. apply Hq. left. auto.
Qed.

Lemma in_concat_skipn (f : list (list Cube)) i q : In q (concat (skipn i f)) <-> exists j, i <= j /\ In q (nth j f []).
Proof.
  rewrite in_concat. split.
  - intros (l & Hl & Hq). apply In_nth_error in Hl. destruct Hl as (k & Hk).
    exists (i + k). split; [lia|]. rewrite nth_error_skipn in Hk. rewrite (nth_error_nth _ _ _ Hk). auto.
  - intros (j & Hj & Hq). exists (nth j f []). split; auto.
    assert (Hl : j < length f). { apply Nat.nle_gt. intros H. rewrite nth_overflow in Hq by auto. elim Hq. }
    apply nth_error_In with (j - i). rewrite nth_error_skipn. replace (i + (j - i)) with j by lia.
    apply nth_error_nth'. auto.
Qed.

Lemma rcnf_true f i w : cnf_true w (rcnf f i) <-> rf f i w.
Proof.
  unfold rcnf. rewrite fold_clauses_true. setoid_rewrite in_concat_skipn. split.
  - intros (_ & H) j q Hj Hq. apply H. eauto.
  - intros H. split; [apply cnf_new_true|]. intros q (j & Hj & Hq). eapply H; eauto.
Qed.
Lemma rcnf_api f i : api_cnf (rcnf f i).
Proof. apply fold_clauses_api, api_cnf_new. Qed.
Lemma rcnf_vars D f i : finv D f -> cnf_vars (is_latch c) (rcnf f i).
Proof.
  intros Hf. apply fold_clauses_vars; [|apply cnf_new_vars]. intros q Hq. apply in_concat_skipn in Hq.
  destruct Hq as (j & _ & Hq). apply (f_cube _ _ Hf j q Hq).
Qed.

(** The number of states of frame [i], and of frames [1 .. n] together. *)
Definition size (f : list (list Cube)) (i : nat) : nat := count c (rcnf f i).
Fixpoint total (f : list (list Cube)) (n : nat) : nat :=
  match n with 0 => 0 | S m => size f (S m) + total f m end.

Definition stronger (f f' : list (list Cube)) : Prop := forall i w, rf f' i w -> rf f i w.

Lemma size_le f i : size f i <= states c.
Proof. apply count_le. Qed.
Lemma size_mono f f' i : stronger f f' -> size f' i <= size f i.
Proof. intros H. apply count_mono. intros w. rewrite !rcnf_true. apply H. Qed.
Lemma size_lt D D' f f' i j w : finv D f -> finv D' f' -> (forall w, rf f' j w -> rf f i w) ->
  rf f i w -> ~ rf f' j w -> size f' j < size f i.
Proof.
  intros Hf Hf' H H1 H2. apply (count_lt c _ _ w); [eapply rcnf_vars; eauto|eapply rcnf_vars; eauto| | |].
  - intros u. rewrite !rcnf_true. apply H.
  - apply rcnf_true; auto.
  - rewrite rcnf_true; auto.
Qed.
Lemma total_mono f f' n : stronger f f' -> total f' n <= total f n.
Proof.
  intros H. induction n as [|n IH]; cbn [total]; auto. pose proof (size_mono f f' (S n) H). lia.
Qed.
Lemma total_lt D f f' n i w : finv D f -> finv D f' -> stronger f f' -> 1 <= i <= n -> rf f i w -> ~ rf f' i w ->
  total f' n < total f n.
Proof.
  intros Hf Hf' H Hi H1 H2. induction n as [|n IH]; [lia|]. cbn [total].
  destruct (Nat.eq_dec i (S n)) as [->|Hne].
  - pose proof (size_lt D D f f' (S n) (S n) w Hf Hf' (H (S n)) H1 H2). pose proof (total_mono f f' n H). lia.
  - pose proof (size_mono f f' (S n) H). assert (total f' n < total f n) by (apply IH; lia). lia.
Qed.
Lemma total_bound f n : total f n <= n * states c.
Proof. induction n as [|n IH]; cbn [total]; [lia|]. pose proof (size_le f (S n)). lia. Qed.

End Frames.
