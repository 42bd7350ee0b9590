(** The IC3 main algorithm against a contract of its SAT questions: frame invariants, the
    obligation queue, termination.  Used for both the stateless and the stateful variant. *)
From Coq Require Import Permutation.
From Verif Require Import Base Formulas FormulaLogic Aig Fsts Solvers Ic3 Spec SpecAig SpecFsts Tac
  FormulasFacts LogicFacts AigFacts SimFacts AigThms FstsFacts FstsSem TagFacts FstsThms BmcThms StateFacts.
Open Scope nat_scope.

(* ------------------------------------------------------------------------- triples *)

(** The computation returns, and its result satisfies [Q]. *)
Definition okay {A} (m : res A) (Q : A -> Prop) : Prop := exists x, m = Ok x /\ Q x.
(** Panics only if [P], runs out of fuel only if [F], results satisfy [Q]. *)
Definition post {A} (m : res A) (P F : Prop) (Q : A -> Prop) : Prop :=
  match m with Ok x => Q x | Panic => P | OutOfFuel => F end.

Lemma okay_post {A} (m : res A) P F Q : okay m Q -> post m P F Q.
Proof. intros (x & -> & H). exact H. Qed.

Lemma post_bind {A B} (m : res A) (f : A -> res B) P F Q Q' :
  post m P F Q' -> (forall x, Q' x -> post (f x) P F Q) -> post (bind m f) P F Q.
Proof. destruct m; cbn; intros H H'; auto. Qed.

Lemma okay_bind {A B} (m : res A) (f : A -> res B) Q Q' :
  okay m Q' -> (forall x, Q' x -> okay (f x) Q) -> okay (bind m f) Q.
Proof. intros (x & -> & H) H'. cbn. auto. Qed.

Lemma bind_okay {A B} (m : res A) (f : A -> res B) P F Q Q' :
  okay m Q' -> (forall x, Q' x -> post (f x) P F Q) -> post (bind m f) P F Q.
Proof. intros (x & -> & H) H'. cbn. auto. Qed.

Lemma post_impl {A} (m : res A) (P F P' F' : Prop) (Q Q' : A -> Prop) : post m P F Q ->
  (P -> P') -> (F -> F') -> (forall x, Q x -> Q' x) -> post m P' F' Q'.
Proof. destruct m; cbn; auto. Qed.

Lemma okay_impl {A} (m : res A) (Q Q' : A -> Prop) : okay m Q -> (forall x, Q x -> Q' x) -> okay m Q'.
Proof. intros (x & E & H) H'. exists x. auto. Qed.

(* --------------------------------------------------------------------- list lemmas *)

Lemma set_nth_length {A} (l : list A) i x : length (set_nth l i x) = length l.
Proof. revert i; induction l as [|y l IH]; intros [|i]; simpl; auto. Qed.

Lemma nth_set_nth {A} (l : list A) i j x d : i < length l ->
  nth j (set_nth l i x) d = if j =? i then x else nth j l d.
Proof.
  revert i j; induction l as [|y l IH]; intros [|i] [|j] H; simpl in *; auto; try lia.
  rewrite IH by lia. reflexivity.
Qed.

Lemma set_nth_app {A} (l1 l2 : list A) x y : set_nth (l1 ++ x :: l2) (length l1) y = l1 ++ y :: l2.
Proof. induction l1; simpl; f_equal; auto. Qed.

Lemma nth_error_nth_lt {A} (l : list A) i d : i < length l -> nth_error l i = Some (nth i l d).
Proof. intros H. apply nth_error_nth'. auto. Qed.

Lemma indexn_nth {A} (l : list A) i d : i < length l -> indexn l i = Ok (nth i l d).
Proof. intros H. unfold indexn. rewrite (nth_error_nth_lt _ _ d) by auto. reflexivity. Qed.

Lemma nodup_snoc {A} (l : list A) x : NoDup l -> ~ In x l -> NoDup (l ++ [x]).
Proof.
  intros H Hx. apply (Permutation_NoDup (Permutation_cons_append l x)). constructor; auto.
Qed.

Lemma forallb_witness {A} (p : A -> bool) l : forallb p l = false -> exists x, In x l /\ p x = false.
Proof.
  induction l as [|y l IH]; simpl; [discriminate|]. destruct (p y) eqn:E; simpl; eauto.
  intros H. destruct (IH H) as (x & Hx & Ex). eauto.
Qed.

Lemma swap_remove_ok {A} (l : list A) i : i < length l ->
  exists x r, swap_remove l i = Ok (x, r) /\ Permutation l (x :: r).
Proof.
  intros H. unfold swap_remove. destruct (nth_error l i) as [x|] eqn:E; [|apply nth_error_None in E; lia].
  unfold indexn. rewrite E. cbn [unwrap bind]. exists x. eexists. split; [reflexivity|].
  apply nth_error_split in E. destruct E as (l1 & l2 & -> & <-).
  rewrite set_nth_app. destruct l2 as [|z l2] using rev_ind.
  - rewrite last_last, removelast_last. symmetry. apply Permutation_cons_append.
  - clear IHl2. replace (l1 ++ x :: l2 ++ [z]) with ((l1 ++ x :: l2) ++ [z]) by (rewrite <- app_assoc; auto).
    rewrite last_last.
    replace (l1 ++ z :: l2 ++ [z]) with ((l1 ++ z :: l2) ++ [z]) by (rewrite <- app_assoc; auto).
    rewrite removelast_last. rewrite <- Permutation_cons_append, <- !Permutation_middle.
    apply perm_swap.
Qed.

Lemma swap_last_ok {A} (l : list A) i : i < length l ->
  exists r, swap l i (length l - 1) = Ok r /\ Permutation l r.
Proof.
  intros H. unfold swap. destruct (nth_error l i) as [x|] eqn:E; [|apply nth_error_None in E; lia].
  unfold indexn at 1. rewrite E. cbn [unwrap bind].
  apply nth_error_split in E. destruct E as (l1 & l2 & -> & <-).
  destruct l2 as [|z l2] using rev_ind.
  - rewrite app_length. simpl length. replace (length l1 + 1 - 1) with (length l1) by lia.
    unfold indexn. rewrite nth_error_app2, Nat.sub_diag by lia. cbn [nth_error unwrap bind].
    eexists. split; [reflexivity|]. rewrite !set_nth_app. auto.
  - clear IHl2.
    assert (E : length (l1 ++ x :: l2 ++ [z]) - 1 = length (l1 ++ x :: l2)).
    { rewrite !app_length. simpl. rewrite app_length. simpl. lia. }
    rewrite E. unfold indexn.
    replace (l1 ++ x :: l2 ++ [z]) with ((l1 ++ x :: l2) ++ [z]) by (rewrite <- app_assoc; auto).
    rewrite nth_error_app2, Nat.sub_diag by lia. cbn [nth_error unwrap bind].
    eexists. split; [reflexivity|].
    replace ((l1 ++ x :: l2) ++ [z]) with (l1 ++ x :: (l2 ++ [z])) by (rewrite <- app_assoc; auto).
    rewrite set_nth_app.
    replace (l1 ++ z :: l2 ++ [z]) with ((l1 ++ z :: l2) ++ [z]) by (rewrite <- app_assoc; auto).
    replace (length (l1 ++ x :: l2)) with (length (l1 ++ z :: l2)) by (rewrite !app_length; auto).
    rewrite set_nth_app. rewrite <- !app_assoc. simpl.
    apply Permutation_app_head. rewrite <- !Permutation_cons_append. apply perm_swap.
Qed.

(* ------------------------------------------------------------------------- the queue *)

Lemma take_min_spec {A} : forall rest best (seen : Queue A) e q,
  (forall x, In x seen -> snd best <= snd x) ->
  take_min best seen rest = (e, q) ->
  Permutation (best :: seen ++ rest) (e :: q) /\ (forall x, In x (best :: seen ++ rest) -> snd e <= snd x).
Proof.
  induction rest as [|y rest IH]; intros best seen e q Hs E; simpl in E.
  - inv E. rewrite app_nil_r. split; auto. intros x [<-|Hx]; auto.
  - destruct (snd y <? snd best) eqn:C.
    + apply Nat.ltb_lt in C. apply IH in E.
      2:{ intros x [<-|Hx]; [lia|]. specialize (Hs x Hx). lia. }
      destruct E as (P & M). split.
      * rewrite <- P. cbn [app]. rewrite <- Permutation_middle. apply perm_swap.
      * intros x Hx. apply M. cbn [app]. simpl in Hx |- *. rewrite in_app_iff in *. simpl in *. tauto.
    + apply Nat.ltb_ge in C. apply IH in E.
      2:{ intros x [<-|Hx]; auto. }
      destruct E as (P & M). split.
      * rewrite <- P. cbn [app]. rewrite <- Permutation_middle. auto.
      * intros x Hx. apply M. cbn [app]. simpl in Hx |- *. rewrite in_app_iff in *. simpl in *. tauto.
Qed.

Lemma queue_pop_spec {A} (p : forall B, list B -> list B) (q : Queue A) :
  (forall B (l : list B), Permutation (p B l) l) -> q <> [] ->
  exists e r, queue_pop p q = Some (e, r) /\ Permutation q (e :: r) /\ forall x, In x q -> snd e <= snd x.
Proof.
  intros Hp Hq. unfold queue_pop. destruct (p (A * nat)%type q) as [|e r] eqn:E.
  - elim Hq. specialize (Hp _ q). rewrite E in Hp. apply Permutation_nil; auto.
  - destruct (take_min e [] r) as (m & r') eqn:Em. exists m, r'. split; auto.
    apply take_min_spec in Em; [|intros x []]. destruct Em as (P & M). simpl in P, M.
    specialize (Hp _ q). rewrite E in Hp. split.
    + rewrite <- P. symmetry; auto.
    + intros x Hx. apply M. apply (Permutation_in x (Permutation_sym Hp)) in Hx. auto.
Qed.

Lemma queue_push_new (q : Queue Cube) x n : ~ In x (map fst q) -> queue_push cube_eqb q x n = q ++ [(x, n)].
Proof.
  intros H. unfold queue_push. destruct (existsb (fun e => cube_eqb x (fst e)) q) eqn:E; auto.
  apply existsb_exists in E. destruct E as (e & He & Ee). apply cube_eqb_eq in Ee. elim H. subst x.
  apply in_map; auto.
Qed.

(* ------------------------------------------------------------------------- frames *)

Section Core.
Variables (c : circuit) (flag : bool) (s : FSTS).
Hypothesis Hwf : circuit_wf c.
Hypothesis Hn : numbered c flag.
Hypothesis He : encodes c flag s.

Definition latch_clause (d : Clause) : Prop := api_clause d /\ clause_vars (is_latch c) d.
Definition latch_cnf (f : CNF) : Prop := api_cnf f /\ cnf_vars (is_latch c) f.
Definition fr (cls : list CNF) (i : nat) : CNF := nth i cls cnf_new.
Definition base (i : nat) (w : valuation) : Prop :=
  match i with O => initial_values c w | S _ => ~ is_bad c flag w end.
Definition in_frame (cls : list CNF) (i : nat) (w : valuation) : Prop :=
  cnf_true w (fr cls i) /\ base i w.

(** A step inside the circuit. *)
Definition steps (w w' : valuation) : Prop := wires_ok c w /\ step_values c w w'.

(** The answer to "is there a step with this property" and the states it shows. *)
Definition answers (r : SatResponse) (Q : valuation -> valuation -> Prop) : Prop :=
  match r with
  | UnSat => forall w w', steps w w' -> ~ Q w w'
  | Sat asg => exists w w', steps w w' /\ Q w w' /\
                 forall v, is_latch c v -> get_value asg v = Some (w v)
  end.
Definition bad_state (w' : valuation) : Prop :=
  exists w'', wires_ok c w'' /\ same_latches c w'' w' /\ is_bad c flag w''.

Record ops_ok (O : Ic3Ops) (good : ox O -> Prop) : Prop := {
  ok_frames : forall x, good x -> Forall latch_cnf (o_clauses O x);
  ok_push : forall x, good x ->
    okay (o_push_frame O x) (fun x' => good x' /\ o_clauses O x' = o_clauses O x ++ [cnf_new]);
  ok_add : forall x j d, good x -> j < length (o_clauses O x) -> latch_clause d ->
    okay (o_add_clause O x j d) (fun x' => good x' /\
      o_clauses O x' = set_nth (o_clauses O x) j (cnf_add_clause (fr (o_clauses O x) j) d));
  ok_bad_0 : forall x, good x ->
    okay (o_bad_in_0 O x) (fun rx => good (snd rx) /\ o_clauses O (snd rx) = o_clauses O x /\
      match fst rx with
      | UnSat => forall w, wires_ok c w -> initial_values c w -> ~ is_bad c flag w
      | Sat _ => exists w, wires_ok c w /\ initial_values c w /\ is_bad c flag w
      end);
  ok_bad_1 : forall x, good x ->
    okay (o_bad_in_1 O x) (fun rx => good (snd rx) /\ o_clauses O (snd rx) = o_clauses O x /\
      match fst rx with
      | UnSat => forall w w', steps w w' -> initial_values c w -> ~ bad_state w'
      | Sat _ => exists w w', steps w w' /\ initial_values c w /\ bad_state w'
      end);
  ok_bad_from : forall x i, good x -> i < length (o_clauses O x) ->
    okay (o_bad_from_fi O x i) (fun rx => good (snd rx) /\ o_clauses O (snd rx) = o_clauses O x /\
      answers (fst rx) (fun w w' => in_frame (o_clauses O x) i w /\ bad_state w'));
  ok_reach : forall x i q, good x -> i < length (o_clauses O x) -> api_cube q -> cube_vars (is_latch c) q ->
    okay (o_reach_from_fi O x i q) (fun rx => good (snd rx) /\ o_clauses O (snd rx) = o_clauses O x /\
      answers (fst rx) (fun w w' => in_frame (o_clauses O x) i w /\ cube_true w' q));
  ok_propagate : forall x i d, good x -> i < length (o_clauses O x) -> latch_clause d ->
    okay (o_propagate_query O x i d) (fun rx => good (snd rx) /\ o_clauses O (snd rx) = o_clauses O x /\
      answers (fst rx) (fun w w' => in_frame (o_clauses O x) i w /\ ~ clause_true w' d));
  ok_not_s : forall x i q, good x -> i < length (o_clauses O x) -> api_cube q -> cube_vars (is_latch c) q ->
    okay (o_not_s_and_s_tag O x i q) (fun rx => good (snd rx) /\ o_clauses O (snd rx) = o_clauses O x /\
      (fst rx = true <-> exists w w', steps w w' /\ in_frame (o_clauses O x) i w /\
         ~ cube_true w q /\ cube_true w' q));
  ok_inductive : forall x d i, good x -> i < length (o_clauses O x) -> latch_clause d ->
    consistent (clause_not d) ->
    okay (o_clause_inductive O x d i) (fun rx => good (snd rx) /\ o_clauses O (snd rx) = o_clauses O x /\
      (fst rx = true <->
         (forall w, initial_values c w -> clause_true w d) /\
         (forall w w', steps w w' -> in_frame (o_clauses O x) i w -> clause_true w d -> clause_true w' d)));
  ok_get_fk : forall x i, good x -> i < length (o_clauses O x) ->
    o_get_fk O x i = Ok (cnf_append (fr (o_clauses O x) i)
      (if i =? 0 then cube_to_cnf (get_initial_relation s) else ic3_p0 s));
  ok_check : forall x, good x -> 0 < length (o_clauses O x) -> fr (o_clauses O x) 0 = cnf_new ->
    o_loop_check O x = Ok tt }.

(** The frame invariants while (at least) frames 0 .. k+1 exist. *)
Record finv (k : nat) (cls : list CNF) : Prop := {
  f_len : k + 2 <= length cls;
  f_cnf : forall i, latch_cnf (fr cls i);
  f_zero : fr cls 0 = cnf_new;
  f_init : forall i w, initial_values c w -> cnf_true w (fr cls i);
  f_mono : forall i, 1 <= i -> incl (cnf_clauses (fr cls (S i))) (cnf_clauses (fr cls i));
  f_step : forall i w w', steps w w' -> in_frame cls i w -> cnf_true w' (fr cls (S i)) }.

Definition grow (cls cls' : list CNF) : Prop :=
  length cls' = length cls /\
  forall i, incl (cnf_clauses (fr cls i)) (cnf_clauses (fr cls' i)).

Lemma grow_refl cls : grow cls cls. Proof. split; auto. intros i x. auto. Qed.
Lemma grow_trans a b d : grow a b -> grow b d -> grow a d.
Proof. intros (E & H) (E' & H'). split; [congruence|]. intros i x Hx. apply H', H, Hx. Qed.
Lemma grow_true a b i w : grow a b -> cnf_true w (fr b i) -> cnf_true w (fr a i).
Proof. intros (_ & H) Hw d Hd. apply Hw, H, Hd. Qed.
Lemma grow_in a b i w : grow a b -> in_frame b i w -> in_frame a i w.
Proof. intros H (H1 & H2). split; auto. eapply grow_true; eauto. Qed.

Lemma mono_le k cls i j w : finv k cls -> 1 <= i <= j -> cnf_true w (fr cls i) -> cnf_true w (fr cls j).
Proof.
  intros H (Hi & Hij). induction Hij as [|j Hij IH]; auto. intros Hw d Hd. apply IH; auto.
  eapply f_mono; eauto. lia.
Qed.

Section Queries.
Hypothesis Hp0 : forall w, wires_ok c w -> initial_values c w -> ~ is_bad c flag w.

Lemma frame_le k cls i j w : finv k cls -> i <= j -> wires_ok c w -> in_frame cls i w -> in_frame cls j w.
Proof.
  intros H Hij Hw (H1 & H2). destruct i as [|i], j as [|j]; try lia.
  - split; auto.
  - split; [apply (f_init _ _ H); auto|]. cbn. apply Hp0; auto.
  - split; auto. eapply mono_le; [eauto| |eauto]. lia.
Qed.

(** State [u] has no predecessor in frame [i] other than itself. *)
Definition blocked (cls : list CNF) (i : nat) (u : valuation) : Prop :=
  forall w w', steps w w' -> in_frame cls i w -> ~ same_latches c w u -> ~ same_latches c w' u.

(** A state of frame [n] that is not in frame [n-1] is not initial and has no predecessor in
    frame [n-2]. *)
Lemma new_in_frame k cls n u : finv k cls -> 1 <= n <= S k -> in_frame cls n u -> ~ in_frame cls (n - 1) u ->
  ~ initial_values c u /\ (2 <= n -> blocked cls (n - 2) u).
Proof.
  intros H (H1 & H2) Hin Hout. destruct n as [|[|n]]; [lia| |].
  - simpl in Hout. split; [|lia]. intros Hi. apply Hout. split; auto. apply (f_init _ _ H); auto.
  - replace (S (S n) - 1) with (S n) in Hout by lia. replace (S (S n) - 2) with n by lia.
    assert (Hc : ~ cnf_true u (fr cls (S n))).
    { intros Hc. apply Hout. split; auto. destruct Hin as (_ & Hb). exact Hb. }
    split; [intros Hi; apply Hc, (f_init _ _ H); auto|].
    intros _ w w' Hst Hw _ Hs. apply Hc. eapply latch_cnf_same; [apply (f_cnf _ _ H)|exact Hs|].
    apply (f_step _ _ H) with w; auto.
Qed.

(* ------------------------------------------------------------------ adding a clause *)

(** Clause [d] added to frames 1 .. m. *)
Definition added_upto (cls cls' : list CNF) (m : nat) (d : Clause) : Prop :=
  length cls' = length cls /\
  forall j, fr cls' j = if (1 <=? j) && (j <=? m) then cnf_add_clause (fr cls j) d else fr cls j.

Lemma finv_add k cls cls' i d : finv k cls -> i <= k -> latch_clause d ->
  (forall w, initial_values c w -> clause_true w d) ->
  (forall w w', steps w w' -> in_frame cls i w -> clause_true w d -> clause_true w' d) ->
  added_upto cls cls' (S i) d -> finv k cls' /\ grow cls cls'.
Proof.
  intros H Hi (Hda & Hdv) Hinit Hstep (Hlen & Hadd).
  assert (T : forall j w, cnf_true w (fr cls' j) -> cnf_true w (fr cls j)).
  { intros j w. rewrite Hadd. destruct ((1 <=? j) && (j <=? S i)); auto.
    rewrite cnf_add_clause_true. tauto. }
  assert (TI : forall j w, in_frame cls' j w -> in_frame cls j w).
  { intros j w (H1 & H2). split; auto. }
  assert (G : grow cls cls').
  { split; auto. intros j x Hx. rewrite Hadd. destruct ((1 <=? j) && (j <=? S i)); auto. apply in_add_clause. auto. }
  split; auto. split.
  - rewrite Hlen. apply (f_len _ _ H).
  - intros j. rewrite Hadd. destruct ((1 <=? j) && (j <=? S i)); [|apply (f_cnf _ _ H)].
    destruct (f_cnf _ _ H j) as (A & V). split; [apply api_cnf_add; auto|apply cnf_add_vars; auto].
  - rewrite Hadd. simpl. apply (f_zero _ _ H).
  - intros j w Hw. rewrite Hadd. destruct ((1 <=? j) && (j <=? S i)); [|apply (f_init _ _ H); auto].
    apply cnf_add_clause_true. split; [apply (f_init _ _ H)|]; auto.
  - intros j Hj x Hx. rewrite Hadd in *.
    destruct ((1 <=? S j) && (S j <=? S i)) eqn:E1; destruct ((1 <=? j) && (j <=? S i)) eqn:E2.
    + apply in_add_clause. apply in_add_clause in Hx. destruct Hx as [Hx|Hx]; auto. left.
      apply (f_mono _ _ H); auto.
    + apply andb_false_iff in E2. apply andb_true_iff in E1. rewrite !Nat.leb_le in E1.
      rewrite !Nat.leb_gt in E2. lia.
    + apply in_add_clause. left. apply (f_mono _ _ H); auto.
    + apply (f_mono _ _ H); auto.
  - intros j w w' Hst Hw. pose proof (f_step _ _ H j w w' Hst (TI _ _ Hw)) as Old.
    rewrite Hadd. destruct ((1 <=? S j) && (S j <=? S i)) eqn:E1; auto.
    apply cnf_add_clause_true. split; auto.
    apply andb_true_iff in E1. rewrite !Nat.leb_le in E1.
    apply Hstep with w; auto.
    + apply frame_le with k j; auto; [lia|apply Hst].
    + destruct j as [|j].
      * apply Hinit. apply Hw.
      * destruct Hw as (Hw & _). rewrite Hadd in Hw.
        assert (X : (1 <=? S j) && (S j <=? S i) = true) by (apply andb_true_iff; rewrite !Nat.leb_le; lia).
        rewrite X in Hw. apply cnf_add_clause_true in Hw. tauto.
Qed.

Variable (b : build) (R : Random) (O : Ic3Ops) (good : ox O -> Prop).
Hypothesis HR : random_ok R.
Hypothesis HO : ops_ok O good.
Notation cl := (fun st : Ic3State O => o_clauses O (st_ops st)).
Definition sinv (k : nat) (st : Ic3State O) : Prop := good (st_ops st) /\ finv k (cl st).

Lemma op_okay {A} (f : ox O -> res (A * ox O)) (st : Ic3State O) Q :
  okay (f (st_ops st)) Q ->
  okay (op O f st) (fun r => Q (fst r, st_ops (snd r)) /\ st_draws (snd r) = st_draws st).
Proof.
  intros ((a & x) & E & H). unfold op. rewrite E. cbn [bind]. eexists. split; [reflexivity|]. auto.
Qed.

(* ------------------------------------------------------------------ generalization *)

(** The literals form a clause that holds initially and is kept by steps from frame [i]. *)
Definition rel_inductive (cls : list CNF) (i : nat) (d : Clause) : Prop :=
  (forall w, initial_values c w -> clause_true w d) /\
  (forall w w', steps w w' -> in_frame cls i w -> clause_true w d -> clause_true w' d).

Definition sub_of (u : valuation) (lits : list Literal) : Prop :=
  forall l, In l lits -> is_latch c (lit_var l) /\ ~ lit_true u l.

Lemma sub_of_clause u lits : sub_of u lits ->
  latch_clause (clause_new lits) /\ consistent (clause_not (clause_new lits)) /\ ~ clause_true u (clause_new lits).
Proof.
  intros H. assert (F : ~ clause_true u (clause_new lits)).
  { rewrite clause_new_true. intros (l & Hl & Ht). apply (H l Hl). auto. }
  split; [split; [apply clause_new_api|]|split; auto].
  - intros l Hl. rewrite in_clause_new in Hl. apply (H l Hl).
  - exists u. apply clause_not_true. auto.
Qed.

Lemma sub_of_perm u l l' : Permutation l l' -> sub_of u l -> sub_of u l'.
Proof. intros P H x Hx. apply H. eapply Permutation_in; [symmetry|]; eauto. Qed.

Lemma clause_new_perm l l' : Permutation l l' -> clause_new l = clause_new l'.
Proof. intros P. unfold clause_new. f_equal. apply sortN_eq_iff; auto. Qed.

Lemma subclause_ok k u i : i <= k -> forall fuel lits j st,
  length lits - j <= fuel -> sinv k st -> sub_of u lits -> rel_inductive (cl st) i (clause_new lits) ->
  okay (subclause_loop O fuel i lits j st) (fun r =>
    good (st_ops (snd r)) /\ cl (snd r) = cl st /\ sub_of u (fst r) /\
    rel_inductive (cl st) i (clause_new (fst r))).
Proof.
  intros Hi. induction fuel as [|fuel IH]; intros lits j st Hf Hs Hsub Hrel; cbn [subclause_loop];
    destruct (j <? length lits) eqn:E.
  1: { apply Nat.ltb_lt in E. lia. }
  1,3: eexists; split; [reflexivity|]; destruct Hs; auto.
  apply Nat.ltb_lt in E. destruct (swap_remove_ok lits j E) as (x & r & Es & P). rewrite Es. cbn [bind].
  pose proof (Permutation_length P) as PL. simpl in PL.
  assert (Sr : sub_of u r) by (intros l Hl; apply Hsub; apply (Permutation_in l (Permutation_sym P)); simpl; auto).
  destruct (sub_of_clause u r Sr) as (L1 & L2 & L3).
  eapply okay_bind.
  { apply op_okay. apply (ok_inductive _ _ HO); auto.
    - apply Hs.
    - pose proof (f_len _ _ (proj2 Hs)). lia. }
  intros (ind & st') ((Hg & Ec & Hind) & _). cbn [fst snd] in *.
  assert (Hs' : sinv k st') by (split; auto; rewrite Ec; apply Hs).
  destruct ind.
  - eapply okay_impl; [apply (IH r j st')|].
    + lia.
    + auto.
    + auto.
    + rewrite Ec. apply Hind. auto.
    + intros (ls & st'') (G1 & G2 & G3 & G4). cbn [fst snd] in *. rewrite Ec in *. auto.
  - destruct (swap_last_ok (r ++ [x]) j) as (r' & Er & P').
    { rewrite app_length. simpl. lia. }
    rewrite Er. cbn [bind].
    assert (PP : Permutation lits r').
    { rewrite P, Permutation_cons_append. auto. }
    pose proof (Permutation_length PP).
    eapply okay_impl; [apply (IH r' (S j) st')|].
    + lia.
    + auto.
    + eapply sub_of_perm; eauto.
    + rewrite Ec, <- (clause_new_perm _ _ PP). auto.
    + intros (ls & st'') (G1 & G2 & G3 & G4). cbn [fst snd] in *. rewrite Ec in *. auto.
Qed.

(** All literals of the negated state cube. *)
Lemma sub_of_state u : sub_of u (clause_lits (cube_not (state_of c u))).
Proof.
  intros l Hl. apply in_cube_not in Hl. split.
  - rewrite <- (lit_var_not l). apply (state_of_vars c u); auto.
  - rewrite <- lit_true_not. apply (state_of_true c u u); auto. apply same_latches_refl.
Qed.

Lemma add_frames_ok d : latch_clause d -> forall m i st, i + m < length (cl st) -> good (st_ops st) ->
  okay (foldM (fun st j => op_ O (fun x => o_add_clause O x j d) st) (seq (S i) m) st) (fun st' =>
    good (st_ops st') /\ length (cl st') = length (cl st) /\
    forall j, fr (cl st') j = if (S i <=? j) && (j <=? i + m) then cnf_add_clause (fr (cl st) j) d else fr (cl st) j).
Proof.
  intros Hd. induction m as [|m IH]; intros i st Hlen Hg; cbn [seq foldM].
  - eexists. split; [reflexivity|]. split; auto. split; auto. intros j.
    destruct ((S i <=? j) && (j <=? i + 0)) eqn:E; auto.
    apply andb_true_iff in E. rewrite !Nat.leb_le in E. lia.
  - unfold op_ at 1. destruct (ok_add _ _ HO (st_ops st) (S i) d Hg) as (x & Ex & Hgx & Ecx); auto; [lia|].
    rewrite Ex. cbn [bind].
    eapply okay_impl; [apply (IH (S i) (mkIc3State x (st_draws st)))|].
    + cbn [st_ops]. rewrite Ecx, set_nth_length. lia.
    + auto.
    + cbn [st_ops]. intros st' (G1 & G2 & G3). split; auto. split; [rewrite G2, Ecx, set_nth_length; auto|].
      intros j. rewrite G3, Ecx. unfold fr. rewrite nth_set_nth by lia.
      destruct (j =? S i) eqn:Ej.
      * apply Nat.eqb_eq in Ej. subst j.
        replace ((S (S i) <=? S i) && (S i <=? S i + m)) with false by (symmetry; apply andb_false_iff; rewrite Nat.leb_gt; lia).
        replace ((S i <=? S i) && (S i <=? i + S m)) with true by (symmetry; apply andb_true_iff; rewrite !Nat.leb_le; lia).
        reflexivity.
      * apply Nat.eqb_neq in Ej.
        replace ((S (S i) <=? j) && (j <=? S i + m)) with ((S i <=? j) && (j <=? i + S m)); auto.
        f_equal; apply eq_true_iff_eq; rewrite !Nat.leb_le; lia.
Qed.

Lemma generate_ok k u i st : i <= k -> sinv k st -> ~ initial_values c u -> blocked (cl st) i u ->
  okay (generate_clause R O (state_of c u) i st) (fun st' =>
    sinv k st' /\ grow (cl st) (cl st') /\ forall j, 1 <= j <= S i -> ~ cnf_true u (fr (cl st') j)).
Proof.
  intros Hi Hs Hu Hb. unfold generate_clause, get_subclause, draw.
  set (lits := R (st_draws st) Literal (clause_iter (cube_not (state_of c u)))).
  assert (P : Permutation lits (clause_lits (cube_not (state_of c u)))) by apply HR.
  assert (Ed : clause_new lits = cube_not (state_of c u)).
  { rewrite (clause_new_perm _ _ P). unfold cube_not, clause_new. cbn [clause_lits]. f_equal.
    apply sortN_idem, sortN_sorted. }
  eapply okay_bind.
  { eapply okay_bind.
    { apply (subclause_ok k u i Hi); [lia|exact Hs| |].
      - eapply sub_of_perm; [symmetry; apply P|apply sub_of_state].
      - cbn [st_ops]. rewrite Ed. split.
        + intros w Hw. apply cube_not_true. rewrite state_of_true. intros E. apply Hu.
          eapply initial_same; eauto.
        + intros w w' Hst Hw Hc. apply cube_not_true. rewrite state_of_true.
          apply cube_not_true in Hc. rewrite state_of_true in Hc. eapply Hb; eauto. }
    intros (ls & st1) H. eexists. split; [reflexivity|].
    instantiate (1 := fun r => good (st_ops (snd r)) /\ cl (snd r) = cl st /\
      rel_inductive (cl st) i (fst r) /\ latch_clause (fst r) /\ ~ clause_true u (fst r)).
    cbn [fst snd st_ops] in *. destruct H as (H1 & H2 & H3 & H4).
    destruct (sub_of_clause _ _ H3) as (L1 & _ & L3). auto. }
  intros (d & st1) (G1 & G2 & (G3 & G3') & G4 & G5). cbn [fst snd] in *.
  eapply okay_impl; [apply (add_frames_ok d G4 (S i) 0 st1); auto|].
  - rewrite G2. pose proof (f_len _ _ (proj2 Hs)). lia.
  - intros st' (F1 & F2 & F3). rewrite G2 in *. 
    destruct (finv_add k (cl st) (cl st') i d) as (X & Y); auto.
    + apply Hs.
    + split; auto.
    + split; [split; auto|]. split; auto. intros j Hj Hw. rewrite F3 in Hw.
      replace ((1 <=? j) && (j <=? 0 + S i)) with true in Hw by (symmetry; apply andb_true_iff; rewrite !Nat.leb_le; lia).
      apply cnf_add_clause_true in Hw. tauto.
Qed.

Lemma not_s_spec u w : ~ cube_true w (state_of c u) <-> ~ same_latches c w u.
Proof. rewrite state_of_true. tauto. Qed.

Lemma generalize_loop_ok k u : 1 <= k -> ~ initial_values c u -> forall m i st,
  i + m = S k -> 1 <= i -> sinv k st -> blocked (cl st) (i - 1) u ->
  okay (generalize_loop R O (state_of c u) k (seq i m) st) (fun r =>
    sinv k (snd r) /\ grow (cl st) (cl (snd r)) /\
    exists n, fst r = IG_Success n /\ i - 1 <= n <= k /\
      forall j, 1 <= j <= S n -> ~ cnf_true u (fr (cl (snd r)) j)).
Proof.
  intros Hk Hu. induction m as [|m IH]; intros i st Him Hi Hs Hb; cbn [seq generalize_loop].
  - eapply okay_bind; [apply (generate_ok k u k st); auto|].
    { replace k with (i - 1) by lia. auto. }
    intros st' (G1 & G2 & G3). eexists. split; [reflexivity|]. cbn [fst snd]. split; auto. split; auto.
    exists k. split; auto. split; [lia|auto].
  - eapply okay_bind.
    { apply op_okay. apply (ok_not_s _ _ HO); [apply Hs| |apply state_of_api|apply state_of_vars].
      pose proof (f_len _ _ (proj2 Hs)). lia. }
    intros (sat & st1) ((Hg & Ec & Hsat) & _). cbn [fst snd] in *.
    assert (Hs1 : sinv k st1) by (split; auto; rewrite Ec; apply Hs).
    destruct sat.
    + eapply okay_bind; [apply (generate_ok k u (i - 1) st1); auto; [lia|rewrite Ec; auto]|].
      intros st' (G1 & G2 & G3). eexists. split; [reflexivity|]. cbn [fst snd]. rewrite Ec in G2.
      split; auto. split; auto. exists (i - 1). split; auto. split; [lia|auto].
    + eapply okay_impl; [apply (IH (S i) st1); auto; [lia|]|].
      * replace (S i - 1) with i by lia. rewrite Ec. intros w w' Hst Hw Hn1 Hn2.
        assert (X : false = true); [|discriminate]. apply Hsat. exists w, w'. split; auto. split; auto.
        rewrite !state_of_true. auto.
      * intros (g & st') (G1 & G2 & n & G3 & G4 & G5). cbn [fst snd] in *. rewrite Ec in G2.
        split; auto. split; auto. exists n. split; auto. split; [lia|auto].
Qed.

Lemma generalize_ok k u (mn : Z) st : 1 <= k -> sinv k st -> ~ initial_values c u ->
  (mn <= Z.of_nat k)%Z -> ((0 <= mn)%Z -> blocked (cl st) (Z.to_nat mn) u) ->
  okay (inductively_generalize R O (state_of c u) mn k st) (fun r =>
    sinv k (snd r) /\ grow (cl st) (cl (snd r)) /\
    match fst r with
    | IG_Failure => exists w w', steps w w' /\ initial_values c w /\ same_latches c w' u
    | IG_Success n => (mn <= Z.of_nat n)%Z /\ n <= k /\
        forall j, 1 <= j <= S n -> ~ cnf_true u (fr (cl (snd r)) j)
    end).
Proof.
  intros Hk Hs Hu Hm Hb. unfold inductively_generalize.
  assert (Rest : forall st', good (st_ops st') -> cl st' = cl st -> 
    blocked (cl st) (Z.to_nat (Z.max 1 (mn + 1)) - 1) u ->
    okay (generalize_loop R O (state_of c u) k
      (seq (Z.to_nat (Z.max 1 (mn + 1))) (S k - Z.to_nat (Z.max 1 (mn + 1)))) st')
     (fun r => sinv k (snd r) /\ grow (cl st) (cl (snd r)) /\
       match fst r with
       | IG_Failure => exists w w', steps w w' /\ initial_values c w /\ same_latches c w' u
       | IG_Success n => (mn <= Z.of_nat n)%Z /\ n <= k /\
          forall j, 1 <= j <= S n -> ~ cnf_true u (fr (cl (snd r)) j)
       end)).
  { intros st' Hg Ec Hbl. set (start := Z.to_nat (Z.max 1 (mn + 1))) in *.
    eapply okay_impl; [apply (generalize_loop_ok k u Hk Hu (S k - start) start st')|].
    - unfold start. lia.
    - unfold start. lia.
    - split; auto. rewrite Ec. apply Hs.
    - rewrite Ec. auto.
    - intros (g & st2) (G1 & G2 & n & G3 & G4 & G5). cbn [fst snd] in *. rewrite Ec in G2.
      split; auto. split; auto. subst g. split; [unfold start in G4; lia|]. split; [lia|auto]. }
  destruct (mn <? 0)%Z eqn:Em.
  - assert (Em0 : (mn < 0)%Z) by lia. eapply okay_bind.
    { apply op_okay. apply (ok_not_s _ _ HO); [apply Hs| |apply state_of_api|apply state_of_vars].
      pose proof (f_len _ _ (proj2 Hs)). lia. }
    intros (sat & st1) ((Hg & Ec & Hsat) & _). cbn [fst snd] in *. destruct sat.
    + eexists. split; [reflexivity|]. cbn [fst snd]. split; [split; auto; rewrite Ec; apply Hs|].
      split; [rewrite Ec; apply grow_refl|].
      destruct (proj1 Hsat eq_refl) as (w & w' & H1 & (_ & H2) & H3 & H4). exists w, w'.
      rewrite state_of_true in H4. auto.
    + apply Rest; auto. replace (Z.to_nat (Z.max 1 (mn + 1)) - 1) with 0 by lia.
      intros w w' Hst Hw Hn1 Hn2. assert (X : false = true); [|discriminate].
      apply Hsat. exists w, w'. split; auto. split; auto. rewrite !state_of_true. auto.
  - cbn [bind]. apply Rest; auto; [apply Hs|].
    replace (Z.to_nat (Z.max 1 (mn + 1)) - 1) with (Z.to_nat mn) by lia. apply Hb. lia.
Qed.

(* ------------------------------------------------------------------ the obligations *)

Definition bad_run : Prop := exists r t, run c r /\ is_bad c flag (r t).

Definition entry_ok (k : nat) (cls : list CNF) (e : Cube * nat) : Prop :=
  exists u, fst e = state_of c u /\ leads c flag u /\ 1 <= snd e <= S k /\
    forall j, 1 <= j <= snd e -> ~ cnf_true u (fr cls j).

Definition queue_ok (k : nat) (cls : list CNF) (q : Queue Cube) : Prop :=
  NoDup (map fst q) /\ Forall (entry_ok k cls) q.

Definition weight (k : nat) (q : Queue Cube) : nat := fold_right (fun e m => (S k - snd e) + m) 0 q.
Definition measure (k : nat) (q : Queue Cube) : nat := (states c - length q) * (k + 2) + weight k q.

Lemma weight_app k q q' : weight k (q ++ q') = weight k q + weight k q'.
Proof. induction q as [|e q IH]; cbn [app weight fold_right]; auto. unfold weight in *. lia. Qed.

Lemma weight_perm k q q' : Permutation q q' -> weight k q = weight k q'.
Proof. induction 1; cbn [weight fold_right] in *; unfold weight in *; lia. Qed.

Lemma queue_bound k cls q : queue_ok k cls q -> length q <= states c.
Proof.
  intros (Hnd & Hf). rewrite <- (map_length fst). apply state_cubes_bound; auto.
  intros x Hx. apply in_map_iff in Hx. destruct Hx as (e & <- & Hx). rewrite Forall_forall in Hf.
  destruct (Hf e Hx) as (u & E & _). eauto.
Qed.

Lemma entry_grow k cls cls' e : grow cls cls' -> entry_ok k cls e -> entry_ok k cls' e.
Proof.
  intros G (u & H1 & H2 & H3 & H4). exists u. repeat (split; auto). intros j Hj Hw.
  apply (H4 j Hj). eapply grow_true; eauto.
Qed.

Lemma queue_add k cls q x n : queue_ok k cls q -> ~ In x (map fst q) -> entry_ok k cls (x, n) ->
  queue_ok k cls (q ++ [(x, n)]).
Proof.
  intros (H1 & H2) H3 H4. split.
  - rewrite map_app. simpl. apply nodup_snoc; auto.
  - apply Forall_app. split; auto.
Qed.

Lemma leads_init w w' u : steps w w' -> initial_values c w -> same_latches c w' u -> leads c flag u -> bad_run.
Proof.
  intros (Hw & Hst) Hi Hs Hl. apply (leads_run c flag w); auto.
  apply (leads_step c flag w w'); auto. eapply leads_same; [|eauto]. apply same_latches_sym; auto.
Qed.

Lemma push_ok k u0 : 1 <= k -> forall fuel q st, sinv k st -> queue_ok k (cl st) q ->
  In (state_of c u0) (map fst q) ->
  post (push_generalization b R O s fuel q k st) False (fuel <= measure k q) (fun r =>
    sinv k (snd r) /\ grow (cl st) (cl (snd r)) /\
    match fst r with
    | Success => ~ cnf_true u0 (fr (cl (snd r)) k)
    | Failure => bad_run
    end).
Proof.
  intros Hk. induction fuel as [|fuel IH]; intros q st Hs Hq H0; cbn [push_generalization].
  { cbn. lia. }
  assert (Hne : q <> []) by (intros ->; destruct H0).
  destruct (queue_pop_spec (R (st_draws st)) q) as ((cube & n) & r & Ep & P & Min);
    [intros B l; apply HR|exact Hne|].
  rewrite Ep. cbn [unwrap bind]. cbn [snd] in Min.
  destruct Hq as (Hnd & Hf).
  assert (Hnd' : NoDup (map fst ((cube, n) :: r))) by (rewrite <- P; auto).
  simpl in Hnd'. inversion Hnd' as [|x y Hnin Hnd'']; subst x y.
  assert (Hf' : Forall (entry_ok k (cl st)) ((cube, n) :: r)) by (rewrite <- P; auto).
  inversion Hf' as [|x y Hcube Hfr]; subst x y.
  assert (H0' : In (state_of c u0) (map fst ((cube, n) :: r))) by (rewrite <- P; auto).
  assert (PL : length q = S (length r)) by (rewrite P; auto).
  assert (PW : weight k q = S k - n + weight k r) by (rewrite (weight_perm k _ _ P); auto).
  destruct (k <? n) eqn:Ekn.
  { apply Nat.ltb_lt in Ekn. cbn. split; [exact Hs|]. split; [apply grow_refl|].
    apply in_map_iff in H0. destruct H0 as ((cb & m) & E0 & Hin). simpl in E0.
    rewrite Forall_forall in Hf. destruct (Hf _ Hin) as (u & Eu & _ & Hm & Hex). simpl in Eu, Hm, Hex.
    specialize (Min _ Hin). simpl in Min. intros Hw. apply (Hex k); [lia|].
    eapply latch_cnf_same; [apply (f_cnf _ _ (proj2 Hs))| |exact Hw].
    apply state_of_inj. rewrite <- E0. auto. }
  apply Nat.ltb_ge in Ekn.
  destruct Hcube as (u & Eu & Hlead & Hrange & Hex). simpl in Eu, Hrange, Hex. subst cube.
  eapply bind_okay.
  { apply op_okay. apply (ok_reach _ _ HO); [apply Hs| |apply state_of_api|apply state_of_vars].
    cbn [st_ops]. pose proof (f_len _ _ (proj2 Hs)). lia. }
  intros (resp & st1) ((Hg & Ec & Hans) & _). cbn [fst snd st_ops] in *.
  assert (Hs1 : sinv k st1) by (split; auto; rewrite Ec; apply Hs).
  assert (Hrq : queue_ok k (cl st) r) by (split; auto).
  destruct resp as [|asg].
  - (* no predecessor in frame n *)
    eapply bind_okay.
    { apply (generalize_ok k u (Z.of_nat n) st1); auto.
      - intros Hi. apply (Hex 1); [lia|]. apply (f_init _ _ (proj2 Hs)); auto.
      - lia.
      - intros _. rewrite Nat2Z.id. rewrite Ec. intros w w' Hst Hw _ Hsame. apply (Hans w w' Hst).
        split; auto. apply state_of_true; auto. }
    intros (g & st2) (G1 & G2 & G3). cbn [fst snd] in *. rewrite Ec in G2. destruct g as [m|].
    + destruct G3 as (G3 & G4 & G5).
      rewrite queue_push_new by auto.
      eapply post_impl; [apply (IH (r ++ [(state_of c u, m + 1)]) st2)|..]; auto.
      * apply queue_add; auto.
        -- split; auto. eapply Forall_impl; [|apply Hfr]. intros e. apply entry_grow; auto.
        -- exists u. cbn [fst snd]. split; auto. split; auto. split; [lia|]. intros j Hj. apply G5. lia.
      * rewrite map_app, in_app_iff. simpl. destruct H0'; auto.
      * unfold measure. rewrite app_length, weight_app. cbn [length weight fold_right snd].
        replace (length r + 1) with (length q) by lia. lia.
      * intros (o & st3) (F1 & F2 & F3). cbn [fst snd] in *. split; auto. split; auto.
        eapply grow_trans; eauto.
    + destruct G3 as (w & w' & G3 & G4 & G5). cbn. split; auto. split; auto. eapply leads_init; eauto.
  - (* a predecessor in frame n *)
    destruct Hans as (w & w' & Hst & (Hin & Hcube) & Hval).
    apply state_of_true in Hcube.
    rewrite (extract_state b c flag s asg w Hn He Hval). cbn [bind].
    assert (Hout : ~ in_frame (cl st) (n - 1) w).
    { intros Hin'. apply (Hex n); [lia|]. eapply latch_cnf_same; [apply (f_cnf _ _ (proj2 Hs))|exact Hcube|].
      replace n with (S (n - 1)) by lia. apply (f_step _ _ (proj2 Hs)) with w; auto. }
    destruct (new_in_frame k (cl st) n w (proj2 Hs)) as (Hni & Hbl); [lia|exact Hin|exact Hout|].
    assert (Hlw : leads c flag w).
    { apply (leads_step c flag w w'); [apply Hst|apply Hst|]. eapply leads_same; [|eauto].
      apply same_latches_sym; auto. }
    assert (Hpn : ~ In (state_of c w) (map fst q)).
    { intros Hx. apply in_map_iff in Hx. destruct Hx as ((cb & m) & E0 & Hx). simpl in E0.
      rewrite Forall_forall in Hf. destruct (Hf _ Hx) as (u' & Eu & _ & Hm & Hex'). simpl in Eu, Hm, Hex'.
      specialize (Min _ Hx). simpl in Min. apply (Hex' n); [lia|].
      eapply latch_cnf_same; [apply (f_cnf _ _ (proj2 Hs))| |apply Hin].
      apply state_of_inj. rewrite <- E0. auto. }
    eapply bind_okay.
    { apply (generalize_ok k w (Z.of_nat n - 2) st1); auto; [lia|].
      intros Hz. rewrite Ec. replace (Z.to_nat (Z.of_nat n - 2)) with (n - 2) by lia. apply Hbl. lia. }
    intros (g & st2) (G1 & G2 & G3). cbn [fst snd] in *. rewrite Ec in G2. destruct g as [m|].
    + destruct G3 as (G3 & G4 & G5).
      assert (Hq1 : queue_ok k (cl st2) (r ++ [(state_of c u, n)])).
      { apply queue_add; auto.
        - split; auto. eapply Forall_impl; [|apply Hfr]. intros e. apply entry_grow; auto.
        - apply (entry_grow k (cl st)); auto. exists u. cbn [fst snd]. auto. }
      assert (Hpn' : ~ In (state_of c w) (map fst (r ++ [(state_of c u, n)]))).
      { intros Hx. apply Hpn. rewrite map_app in Hx. apply in_app_iff in Hx. rewrite P. simpl.
        simpl in Hx. tauto. }
      assert (Hq2 : queue_ok k (cl st2) ((r ++ [(state_of c u, n)]) ++ [(state_of c w, m + 1)])).
      { apply queue_add; auto. exists w. cbn [fst snd]. split; auto. split; auto. split; [lia|].
        intros j Hj. apply G5. lia. }
      rewrite (queue_push_new r) by auto. rewrite queue_push_new by auto.
      pose proof (queue_bound _ _ _ Hq2) as HB. rewrite !app_length in HB. simpl in HB.
      eapply post_impl; [apply (IH ((r ++ [(state_of c u, n)]) ++ [(state_of c w, m + 1)]) st2)|..]; auto.
      * rewrite !map_app, !in_app_iff. simpl. destruct H0'; auto.
      * unfold measure. rewrite !app_length, !weight_app. cbn [length weight fold_right snd].
        replace (states c - length q) with (S (states c - (length r + 1 + 1))) by lia.
        rewrite Nat.mul_succ_l. lia.
      * intros (o & st3) (F1 & F2 & F3). cbn [fst snd] in *. split; auto. split; auto.
        eapply grow_trans; eauto.
    + destruct G3 as (x & x' & G3 & G4 & G5). cbn. split; auto. split; auto. eapply leads_init; eauto.
Qed.

(** No step from frame [i] reaches a bad state. *)
Definition nobad (cls : list CNF) (i : nat) : Prop :=
  forall w w', steps w w' -> in_frame cls i w -> ~ bad_state w'.

Lemma nobad_grow cls cls' i : grow cls cls' -> nobad cls i -> nobad cls' i.
Proof. intros G H w w' Hst Hw. apply (H w w' Hst). eapply grow_in; eauto. Qed.

Lemma bad_leads w : bad_state w -> leads c flag w.
Proof.
  intros (x & H1 & H2 & H3). eapply leads_same; [exact H2|]. apply leads_bad; auto.
Qed.

Lemma strengthen_ok inner k : 1 <= k -> forall fuel st, sinv k st -> nobad (cl st) (k - 1) ->
  post (strengthen b R O s inner fuel k st) False
    (fuel <= count c (fr (cl st) k) \/ inner <= states c * (k + 2)) (fun r =>
    sinv k (snd r) /\ grow (cl st) (cl (snd r)) /\
    match fst r with
    | Success => nobad (cl (snd r)) k
    | Failure => bad_run
    end).
Proof.
  intros Hk. induction fuel as [|fuel IH]; intros st Hs Hnb; cbn [strengthen].
  { cbn. left. lia. }
  eapply bind_okay.
  { apply op_okay. apply (ok_bad_from _ _ HO); [apply Hs|]. pose proof (f_len _ _ (proj2 Hs)). lia. }
  intros (resp & st1) ((Hg & Ec & Hans) & _). cbn [fst snd] in *.
  assert (Hs1 : sinv k st1) by (split; auto; rewrite Ec; apply Hs).
  destruct resp as [|asg].
  - cbn. split; auto. rewrite Ec. split; [apply grow_refl|]. intros w w' Hst Hw Hb. apply (Hans w w' Hst); auto.
  - destruct Hans as (w & w' & Hst & (Hin & Hbad) & Hval).
    rewrite (extract_state b c flag s asg w Hn He Hval). cbn [bind].
    assert (Hout : ~ in_frame (cl st) (k - 1) w) by (intros X; apply (Hnb w w' Hst X Hbad)).
    destruct (new_in_frame k (cl st) k w (proj2 Hs)) as (Hni & Hbl); [lia|exact Hin|exact Hout|].
    assert (Hlw : leads c flag w).
    { apply (leads_step c flag w w'); [apply Hst|apply Hst|]. apply bad_leads; auto. }
    eapply bind_okay.
    { apply (generalize_ok k w (Z.of_nat k - 2) st1); auto; [lia|].
      intros Hz. rewrite Ec. replace (Z.to_nat (Z.of_nat k - 2)) with (k - 2) by lia. apply Hbl. lia. }
    intros (g & st2) (G1 & G2 & G3). cbn [fst snd] in *. rewrite Ec in G2. destruct g as [n|].
    + destruct G3 as (G3 & G4 & G5).
      assert (Hq : queue_ok k (cl st2) [(state_of c w, n + 1)]).
      { split; [simpl; constructor; auto; constructor|]. constructor; [|constructor].
        exists w. cbn [fst snd]. split; auto. split; auto. split; [lia|]. intros j Hj. apply G5. lia. }
      rewrite queue_push_new by (intros []). cbn [app].
      eapply post_bind.
      { eapply post_impl; [apply (push_ok k w Hk inner [(state_of c w, n + 1)] st2); simpl; auto|..].
        - auto.
        - intros Hm. right. eapply Nat.le_trans; [apply Hm|]. unfold measure. cbn [length weight fold_right snd].
          pose proof (states_pos c). replace (states c) with (S (states c - 1)) at 2 by lia.
          rewrite Nat.mul_succ_l. lia.
        - intros x Hx. exact Hx. }
      intros (o & st3) (F1 & F2 & F3). cbn [fst snd] in *. destruct o.
      * assert (G : grow (cl st) (cl st3)) by (eapply grow_trans; eauto).
        eapply post_impl; [apply (IH st3); auto|..]; auto.
        -- eapply nobad_grow; eauto.
        -- intros [Hc|Hc]; auto. left.
           assert (X : count c (fr (cl st3) k) < count c (fr (cl st) k)); [|lia].
           apply count_lt with w; auto.
           ++ apply (f_cnf _ _ (proj2 F1)).
           ++ apply (f_cnf _ _ (proj2 Hs)).
           ++ intros v. apply grow_true; auto.
           ++ apply Hin.
        -- intros (o & st4) (E1 & E2 & E3). cbn [fst snd] in *. split; auto. split; auto.
           eapply grow_trans; eauto.
      * cbn. split; auto. split; auto. eapply grow_trans; eauto.
    + destruct G3 as (x & x' & G3 & G4 & G5). cbn. split; auto. split; auto. eapply leads_init; eauto.
Qed.

(* -------------------------------------------------------------------- propagation *)

(** Clauses of frame [i] that are not in the next frame are violated one step later. *)
Definition pushed (cls : list CNF) (i : nat) (d : Clause) : Prop :=
  In d (cnf_clauses (fr cls (S i))) \/
  exists w w', steps w w' /\ in_frame cls i w /\ ~ clause_true w' d.

Lemma finv_push k cls i d : finv k cls -> 1 <= i <= k -> In d (cnf_clauses (fr cls i)) ->
  (forall w w', steps w w' -> in_frame cls i w -> clause_true w' d) ->
  let cls' := set_nth cls (S i) (cnf_add_clause (fr cls (S i)) d) in
  finv k cls' /\ grow cls cls' /\ (forall j, j <> S i -> fr cls' j = fr cls j) /\
  In d (cnf_clauses (fr cls' (S i))).
Proof.
  intros H Hi Hd Hst cls'.
  assert (Hfr : forall j, fr cls' j = if j =? S i then cnf_add_clause (fr cls (S i)) d else fr cls j).
  { intros j. unfold cls', fr. apply nth_set_nth. pose proof (f_len _ _ H). lia. }
  assert (Hda : latch_clause d).
  { destruct (f_cnf _ _ H i) as (A & V). split; [|apply V; auto]. apply api_cnf_clauses in A.
    rewrite Forall_forall in A. auto. }
  assert (G : grow cls cls').
  { split; [apply set_nth_length|]. intros j x Hx. rewrite Hfr.
    destruct (j =? S i) eqn:E; auto. apply Nat.eqb_eq in E. subst j. apply in_add_clause. auto. }
  split; [|split; [auto|split]].
  - split.
    + unfold cls'. rewrite set_nth_length. apply (f_len _ _ H).
    + intros j. rewrite Hfr. destruct (j =? S i); [|apply (f_cnf _ _ H)].
      destruct (f_cnf _ _ H (S i)) as (A & V), Hda. split; [apply api_cnf_add; auto|apply cnf_add_vars; auto].
    + rewrite Hfr. simpl. apply (f_zero _ _ H).
    + intros j w Hw. rewrite Hfr. destruct (j =? S i); [|apply (f_init _ _ H); auto].
      apply cnf_add_clause_true. split; [apply (f_init _ _ H); auto|]. apply (f_init _ _ H i w Hw). auto.
    + intros j Hj x Hx. rewrite Hfr in *.
      destruct (S j =? S i) eqn:E1; destruct (j =? S i) eqn:E2; rewrite ?Nat.eqb_eq, ?Nat.eqb_neq in *.
      * lia.
      * replace j with i in * by lia. apply in_add_clause in Hx. destruct Hx as [Hx|Hx]; [|subst; auto].
        apply (f_mono _ _ H); auto.
      * subst j. apply in_add_clause. left. apply (f_mono _ _ H); auto.
      * apply (f_mono _ _ H); auto.
    + intros j w w' Hs Hw. pose proof (f_step _ _ H j w w' Hs (grow_in _ _ _ _ G Hw)) as Old.
      rewrite Hfr. destruct (S j =? S i) eqn:E; auto. apply Nat.eqb_eq in E. replace j with i in * by lia.
      apply cnf_add_clause_true. split; auto. apply Hst with w; auto. eapply grow_in; eauto.
  - intros j Hj. rewrite Hfr. destruct (j =? S i) eqn:E; auto. apply Nat.eqb_eq in E. lia.
  - rewrite Hfr, Nat.eqb_refl. apply in_add_clause. auto.
Qed.

Lemma propagate_clauses_fold k i : 1 <= i <= k -> forall order st, sinv k st ->
  incl order (cnf_clauses (fr (cl st) i)) ->
  okay (foldM (fun st d =>
           '(r, st) <- op O (fun x => o_propagate_query O x i d) st ;;
           match r with
           | UnSat => op_ O (fun x => o_add_clause O x (i + 1) d) st
           | Sat _ => Ok st
           end) order st) (fun st' =>
    sinv k st' /\ grow (cl st) (cl st') /\ (forall j, j <> S i -> fr (cl st') j = fr (cl st) j) /\
    forall d, In d order -> pushed (cl st') i d).
Proof.
  intros Hi. induction order as [|d order IH]; intros st Hs Hincl; cbn [foldM].
  { eexists. split; [reflexivity|]. split; auto. split; [apply grow_refl|]. split; auto. intros d []. }
  assert (Hd : In d (cnf_clauses (fr (cl st) i))) by (apply Hincl; simpl; auto).
  assert (Hda : latch_clause d).
  { destruct (f_cnf _ _ (proj2 Hs) i) as (A & V). split; [|apply V; auto]. apply api_cnf_clauses in A.
    rewrite Forall_forall in A. auto. }
  eapply okay_bind with (Q' := fun st1 => sinv k st1 /\ grow (cl st) (cl st1) /\
    (forall j, j <> S i -> fr (cl st1) j = fr (cl st) j) /\ pushed (cl st1) i d).
  - eapply okay_bind.
    { apply op_okay. apply (ok_propagate _ _ HO); [apply Hs| |auto]. pose proof (f_len _ _ (proj2 Hs)). lia. }
    intros (resp & st1) ((Hg & Ec & Hans) & _). cbn [fst snd] in *.
    destruct resp as [|asg].
    + unfold op_. destruct (ok_add _ _ HO (st_ops st1) (i + 1) d Hg) as (x & Ex & Hgx & Ecx); auto.
      { rewrite Ec. pose proof (f_len _ _ (proj2 Hs)). lia. }
      rewrite Ex. cbn [bind]. eexists. split; [reflexivity|]. cbn [st_ops].
      rewrite Ecx, Ec. replace (i + 1) with (S i) by lia.
      destruct (finv_push k (cl st) i d (proj2 Hs) Hi Hd) as (F1 & F2 & F3 & F4).
      { intros w w' Hst Hw. destruct (clause_true_dec w' d); auto. elim (Hans w w' Hst). auto. }
      split; [split; [auto|]; cbn [st_ops]; rewrite Ecx, Ec; replace (i + 1) with (S i) by lia; exact F1|].
      split; auto. split; auto. left. exact F4.
    + destruct Hans as (w & w' & Hst & (Hw & Hc) & _). eexists. split; [reflexivity|].
      rewrite Ec. split; [split; auto; rewrite Ec; apply Hs|]. split; [apply grow_refl|]. split; auto.
      right. exists w, w'. auto.
  - intros st1 (G1 & G2 & G3 & G4).
    eapply okay_impl; [apply (IH st1); auto|].
    + intros x Hx. rewrite G3 by lia. apply Hincl. simpl; auto.
    + intros st2 (F1 & F2 & F3 & F4). split; auto. split; [eapply grow_trans; eauto|].
      split; [intros j Hj; rewrite F3 by auto; auto|].
      intros d' [<-|Hd']; auto. destruct G4 as [G4|(w & w' & E1 & E2 & E3)].
      * left. apply F2. auto.
      * right. exists w, w'. split; auto. split; auto. destruct E2 as (E2 & E4). split; auto.
        rewrite F3 by lia. auto.
Qed.

Lemma propagate_frames k : forall m i st, 1 <= i -> i + m <= S k -> sinv k st ->
  okay (foldM (propagate_frame R O) (seq i m) st) (fun st' =>
    sinv k st' /\ grow (cl st) (cl st') /\ (forall j, j <= i -> fr (cl st') j = fr (cl st) j) /\
    forall j d, i <= j < i + m -> In d (cnf_clauses (fr (cl st') j)) -> pushed (cl st') j d).
Proof.
  induction m as [|m IH]; intros i st Hi Hk Hs; cbn [seq foldM].
  { eexists. split; [reflexivity|]. split; auto. split; [apply grow_refl|]. split; auto. intros; lia. }
  eapply okay_bind with (Q' := fun st1 => sinv k st1 /\ grow (cl st) (cl st1) /\
    (forall j, j <> S i -> fr (cl st1) j = fr (cl st) j) /\
    forall d, In d (cnf_clauses (fr (cl st) i)) -> pushed (cl st1) i d).
  - unfold propagate_frame. rewrite (indexn_nth _ _ cnf_new) by (pose proof (f_len _ _ (proj2 Hs)); lia).
    cbn [bind]. unfold draw. 
    eapply okay_impl; [apply (propagate_clauses_fold k i)|].
    + lia.
    + exact Hs.
    + cbn [st_ops]. intros x Hx. eapply Permutation_in; [|exact Hx]. apply HR.
    + cbn [st_ops]. intros st1 (G1 & G2 & G3 & G4). split; auto. split; auto. split; auto.
      intros d Hd. apply G4. eapply Permutation_in; [symmetry; apply HR|exact Hd].
  - intros st1 (G1 & G2 & G3 & G4).
    eapply okay_impl; [apply (IH (S i) st1); auto; lia|].
    intros st2 (F1 & F2 & F3 & F4). split; auto. split; [eapply grow_trans; eauto|].
    split; [intros j Hj; rewrite F3 by lia; apply G3; lia|].
    intros j d Hj Hd. destruct (Nat.eq_dec j i) as [->|Hne]; [|apply F4; auto; lia].
    rewrite F3, G3 in Hd by lia. destruct (G4 d Hd) as [X|(w & w' & E1 & (E2 & E4) & E3)].
    + left. apply F2. auto.
    + right. exists w, w'. split; auto. split; auto. split; auto. rewrite F3 by lia. auto.
Qed.

(* --------------------------------------------------------------------- fixed points *)

Lemma find_fixpoint_ok k x : good x -> finv k (o_clauses O x) -> forall m i, 1 <= i -> i + m <= S k ->
  okay (find_fixpoint b O (seq i m) x) (fun r =>
    match r with
    | Some inv => exists j, i <= j < i + m /\ inv = cnf_append (fr (o_clauses O x) j) (ic3_p0 s) /\
        (forall d, In d (cnf_clauses (fr (o_clauses O x) j)) -> In d (cnf_clauses (fr (o_clauses O x) (S j))))
    | None => forall j, i <= j < i + m -> exists d, In d (cnf_clauses (fr (o_clauses O x) j)) /\
        ~ In d (cnf_clauses (fr (o_clauses O x) (S j)))
    end).
Proof.
  intros Hg Hf. induction m as [|m IH]; intros i Hi Hk; cbn [seq find_fixpoint].
  { eexists. split; [reflexivity|]. cbv beta iota. intros; lia. }
  rewrite (indexn_nth _ i cnf_new) by (pose proof (f_len _ _ Hf); lia). cbn [bind].
  rewrite (indexn_nth _ (i + 1) cnf_new) by (pose proof (f_len _ _ Hf); lia). cbn [bind].
  replace (i + 1) with (S i) by lia.
  fold (fr (o_clauses O x) i). fold (fr (o_clauses O x) (S i)).
  pose proof (f_mono _ _ Hf i Hi) as Hm.
  rewrite debug_assert_true by (apply forallb_forall; intros d Hd; apply cnf_contains_in; auto).
  cbn [bind].
  destruct (f_cnf _ _ Hf i) as (A1 & _). destruct (f_cnf _ _ Hf (S i)) as (A2 & _).
  apply api_cnf_nodup in A1. apply api_cnf_nodup in A2.
  destruct (cnf_len (fr (o_clauses O x) i) =? cnf_len (fr (o_clauses O x) (S i)))%N eqn:E.
  - apply N.eqb_eq in E. unfold cnf_len, lenN in E.
    rewrite (ok_get_fk _ _ HO x i Hg) by (pose proof (f_len _ _ Hf); lia). cbn [bind].
    eexists. split; [reflexivity|]. exists i. split; [lia|]. split.
    + destruct i; [lia|]. reflexivity.
    + apply (NoDup_length_incl A2); [lia|auto].
  - apply N.eqb_neq in E. eapply okay_impl; [apply (IH (S i)); lia|].
    assert (Hd : exists d, In d (cnf_clauses (fr (o_clauses O x) i)) /\
        ~ In d (cnf_clauses (fr (o_clauses O x) (S i)))).
    { destruct (forallb (cnf_contains (fr (o_clauses O x) (S i))) (cnf_clauses (fr (o_clauses O x) i))) eqn:F.
      - exfalso. apply E. unfold cnf_len, lenN. f_equal. apply Nat.le_antisymm; apply NoDup_incl_length; auto.
        rewrite forallb_forall in F. intros d Hd. apply cnf_contains_in. auto.
      - apply forallb_witness in F. destruct F as (d & Hd & F). exists d. split; auto.
        intros X. apply cnf_contains_in in X. congruence. }
    intros [inv|].
    + intros (j & Hj & H). exists j. split; [lia|auto].
    + intros H j Hj. destruct (Nat.eq_dec j i) as [->|]; auto. apply H. lia.
Qed.

(** If no two consecutive frames are equal there are more and more states in them. *)
Lemma counts_increase k cls : finv k cls ->
  (forall j d, 1 <= j <= k -> In d (cnf_clauses (fr cls j)) -> pushed cls j d) ->
  (forall j, 1 <= j <= k -> exists d, In d (cnf_clauses (fr cls j)) /\ ~ In d (cnf_clauses (fr cls (S j)))) ->
  k <= states c.
Proof.
  intros H Hp Hd. eapply Nat.le_trans; [|apply (count_le c (fr cls (S k)))].
  assert (X : forall j, j <= k -> j <= count c (fr cls (S j))); [|apply X; auto].
  induction j as [|j IH]; intros Hj; [lia|].
  assert (Y : count c (fr cls (S j)) < count c (fr cls (S (S j)))).
  { destruct (Hd (S j)) as (d & Hd1 & Hd2); [lia|].
    destruct (Hp (S j) d) as [Hx|(w & w' & Hst & Hw & Hc)]; auto; [lia|tauto|].
    apply count_lt with w'.
    - apply (f_cnf _ _ H).
    - apply (f_cnf _ _ H).
    - intros v Hv x Hx. apply Hv. apply (f_mono _ _ H); auto. lia.
    - apply (f_step _ _ H) with w; auto.
    - intros Hx. apply Hc. apply Hx. auto. }
  specialize (IH ltac:(lia)). lia.
Qed.

(* ------------------------------------------------------------------------ main loop *)

(** What a returned invariant is. *)
Definition proof_ok (inv : CNF) : Prop := exists f, inv = cnf_append f (ic3_p0 s) /\ latch_cnf f /\
  (forall w, initial_values c w -> cnf_true w f) /\
  (forall w w', steps w w' -> cnf_true w f -> ~ is_bad c flag w -> cnf_true w' f /\ ~ bad_state w').

(** The only way to panic: at least 2^32 frames before a counterexample. *)
Definition overlong : Prop := (32 <= lenN (c_latches c))%N /\ bad_run /\
  exists k, (u32_mod <= N.of_nat k)%N /\ safe_before c flag k.

Definition result_ok (r : ProofResult) : Prop :=
  match r with
  | Proof inv => proof_ok inv
  | ProofCTX d => bad_run /\ safe_before c flag (N.to_nat d) /\
      ((d <= 1)%N /\ shortest c flag (N.to_nat d) \/ (1 <= d)%N /\ safe_before c flag (S (N.to_nat d)))
  end.

Lemma run_frames k cls w : finv k cls -> run c w -> forall t, t <= k -> nobad cls (k - 1) -> t < k \/ t = 0 ->
  in_frame cls t (w t).
Proof.
  intros H (R1 & R2 & R3). induction t as [|t IH]; intros Ht Hnb Hx.
  - split; [apply (f_init _ _ H); auto|auto].
  - assert (IHt : in_frame cls t (w t)) by (apply IH; auto; lia).
    assert (Hst : steps (w t) (w (S t))) by (split; auto).
    split; [apply (f_step _ _ H) with (w t); auto|].
    cbn. intros Hb. apply (Hnb (w t) (w (S t)) Hst).
    + apply frame_le with k t; auto. lia.
    + exists (w (S t)). split; auto. split; auto. apply same_latches_refl.
Qed.

Lemma nobad_safe_after k cls : finv k cls -> 1 <= k -> nobad cls (k - 1) -> safe_before c flag (S k).
Proof.
  intros H Hk Hnb w Hr t Ht Hb. destruct t as [|t].
  - destruct Hr as (R1 & R2 & R3). apply (Hp0 (w 0)); auto.
  - assert (F : in_frame cls t (w t)) by (apply (run_frames k cls w H Hr t); auto; lia).
    destruct Hr as (R1 & R2 & R3). assert (Hst : steps (w t) (w (S t))) by (split; auto).
    apply (Hnb (w t) (w (S t)) Hst).
    + apply frame_le with k t; auto. lia.
    + exists (w (S t)). split; auto. split; auto. apply same_latches_refl.
Qed.

Lemma nobad_safe_before k cls : finv k cls -> 1 <= k -> nobad cls (k - 1) -> safe_before c flag k.
Proof.
  intros H Hk Hnb w Hr t Ht Hb. pose proof (run_frames k cls w H Hr t) as F.
  destruct t as [|t].
  - destruct Hr as (R1 & R2 & R3). apply (Hp0 (w 0)); auto.
  - destruct F as (_ & F); auto; try lia.
Qed.

Lemma finv_new k cls : finv k cls -> finv (S k) (cls ++ [cnf_new]) /\
  (forall i, fr (cls ++ [cnf_new]) i = fr cls i).
Proof.
  intros H. assert (F : forall i, fr (cls ++ [cnf_new]) i = fr cls i).
  { intros i. unfold fr. destruct (Nat.lt_ge_cases i (length cls)) as [Hi|Hi].
    - apply app_nth1; auto.
    - rewrite app_nth2 by lia. rewrite (nth_overflow cls) by lia.
      destruct (i - length cls) as [|[|n]]; reflexivity. }
  split; auto. split.
  - rewrite app_length. pose proof (f_len _ _ H). simpl. lia.
  - intros i. rewrite F. apply (f_cnf _ _ H).
  - rewrite F. apply (f_zero _ _ H).
  - intros i w. rewrite F. apply (f_init _ _ H).
  - intros i. rewrite !F. apply (f_mono _ _ H).
  - intros i w w' Hst (Hw & Hb). rewrite F in *. apply (f_step _ _ H) with w; auto. split; auto.
Qed.

Lemma sinv_weaken k k' st : k' <= k -> sinv k st -> sinv k' st.
Proof.
  intros Hk (Hg & Hf). split; auto. destruct Hf. split; auto. lia.
Qed.

Lemma prove_loop_ok inner : forall outer k0 st, sinv k0 st -> nobad (cl st) k0 -> k0 <= states c ->
  (b = Debug -> length (cl st) = k0 + 2) ->
  post (prove_loop b R O s inner outer (S k0) st) overlong
    (outer + k0 <= states c \/ inner <= states c * (states c + 3)) (fun r =>
      result_ok (fst r) /\ sinv (S k0) (snd r)).
Proof.
  induction outer as [|outer IH]; intros k0 st Hs Hnb Hk0 Hlen; cbn [prove_loop].
  { cbn. left. lia. }
  unfold op_ at 1. destruct (ok_push _ _ HO (st_ops st) (proj1 Hs)) as (x & Ex & Hgx & Ecx).
  rewrite Ex. cbn [bind].
  destruct (finv_new k0 (cl st) (proj2 Hs)) as (Hf1 & Efr).
  rewrite <- Ecx in Hf1, Efr.
  assert (Hlen1 : b = Debug -> length (o_clauses O x) = S k0 + 2).
  { intros Hb. rewrite Ecx, app_length. cbn [length]. rewrite Hlen by auto. lia. }
  cbn [st_ops]. replace (debug_assert b (length (o_clauses O x) =? S k0 + 2)) with (Ok tt).
  2:{ destruct b; [|reflexivity]. rewrite Hlen1 by auto. rewrite Nat.eqb_refl. reflexivity. }
  cbn [bind].
  rewrite (ok_check _ _ HO x Hgx) by (try apply (f_zero _ _ Hf1); pose proof (f_len _ _ Hf1); lia). cbn [bind].
  set (st1 := mkIc3State x (st_draws st)).
  assert (Hnb1 : nobad (cl st1) k0).
  { intros w w' Hst (Hw & Hb). apply (Hnb w w' Hst). split; auto. unfold st1 in Hw. cbn [st_ops] in Hw.
    rewrite Efr in Hw. auto. }
  eapply post_bind.
  { eapply post_impl; [apply (strengthen_ok inner (S k0) ltac:(lia) inner st1)|..].
    - split; auto.
    - replace (S k0 - 1) with k0 by lia. auto.
    - intros [].
    - intros HF. right.
      assert (HN : states c * (S k0 + 2) <= states c * (states c + 3)) by (apply Nat.mul_le_mono_l; lia).
      destruct HF as [HF|HF]; [|lia]. pose proof (count_le c (fr (cl st1) (S k0))).
      assert (states c * 1 <= states c * (states c + 3)) by (apply Nat.mul_le_mono_l; lia). lia.
    - intros r Hr. exact Hr. }
  intros (o & st2) (G1 & G2 & G3). cbn [fst snd] in *. destruct o.
  - unfold propagate_clauses. 
    eapply bind_okay; [apply (propagate_frames (S k0) (S k0) 1 st2); auto; lia|].
    intros st3 (F1 & F2 & F3 & F4).
    assert (Hnb3 : nobad (cl st3) (S k0)) by (eapply nobad_grow; eauto).
    eapply bind_okay; [apply (find_fixpoint_ok (S k0) (st_ops st3) (proj1 F1) (proj2 F1) (S k0) 1); lia|].
    intros [inv|].
    + intros (j & Hj & -> & Hincl). cbn. split; [|exact F1]. exists (fr (cl st3) j). split; auto.
      split; [apply (f_cnf _ _ (proj2 F1))|]. split; [apply (f_init _ _ (proj2 F1))|].
      intros w w' Hst Hw Hb.
      assert (Hin : in_frame (cl st3) j w) by (split; auto; destruct j; [lia|auto]).
      split.
      * intros d Hd. apply (f_step _ _ (proj2 F1) j w w'); auto.
      * apply (Hnb3 w w' Hst). apply frame_le with (S k0) j; auto; [apply F1|lia|apply Hst].
    + intros Hnone.
      assert (Hkn : S k0 <= states c).
      { apply (counts_increase (S k0) (cl st3)); auto.
        - apply F1.
        - intros j d Hj. apply F4. lia.
        - intros j Hj. apply Hnone. lia. }
      eapply post_impl; [apply (IH (S k0) st3); auto|..]; auto.
      * intros Hb. rewrite (proj1 F2), (proj1 G2). apply Hlen1; auto.
      * intros [HF|HF]; auto. left. lia.
      * intros r (X1 & X2). split; auto. eapply sinv_weaken; [|exact X2]. lia.
  - unfold depth_of_frame. destruct (N.of_nat (S k0) <? u32_mod)%N eqn:E.
    + cbn [assert_ bind]. cbn [post fst snd result_ok]. split; [|exact G1]. split; auto. rewrite Nat2N.id.
      split; [|right; split; [lia|]].
      * apply (nobad_safe_before (S k0) (cl st1)); auto; [lia|]. replace (S k0 - 1) with k0 by lia. auto.
      * apply (nobad_safe_after (S k0) (cl st1)); auto; [lia|]. replace (S k0 - 1) with k0 by lia. auto.
    + cbn [assert_ bind]. cbn. apply N.ltb_ge in E. split; [|split; auto].
      * destruct (N.lt_ge_cases (lenN (c_latches c)) 32) as [Hl|Hl]; auto.
        apply states_small in Hl. unfold u32_mod in E. lia.
      * exists (S k0). split; auto.
        apply (nobad_safe_before (S k0) (cl st1)); auto; [lia|]. replace (S k0 - 1) with k0 by lia. auto.
Qed.

End Queries.

(* ------------------------------------------------------------------------- [prove] *)

(** What [prove] expects of the frames left behind by earlier calls. *)
Definition frames_ok (cls : list CNF) : Prop := finv 0 (cls ++ [cnf_new; cnf_new]).

Lemma frames_ok_nil : frames_ok [].
Proof.
  unfold frames_ok. cbn [app].
  assert (Hfr : forall i, fr [cnf_new; cnf_new] i = cnf_new) by (intros [|[|[|i]]]; reflexivity).
  split.
  - cbn [length]. lia.
  - intros i. rewrite Hfr. split; [apply api_cnf_new|apply cnf_new_vars].
  - reflexivity.
  - intros i w _. rewrite Hfr. apply cnf_new_true.
  - intros i _. rewrite !Hfr. apply incl_refl.
  - intros i w w' _ _. rewrite Hfr. apply cnf_new_true.
Qed.

Lemma frames_ok_after k cls : finv k cls -> frames_ok cls.
Proof.
  intros H. apply finv_new in H. destruct H as (H & _). apply finv_new in H. destruct H as (H & _).
  rewrite <- app_assoc in H. cbn [app] in H. unfold frames_ok. destruct H. split; auto. lia.
Qed.

Lemma bad_at_0 w : wires_ok c w -> initial_values c w -> is_bad c flag w ->
  exists r, run c r /\ is_bad c flag (r 0).
Proof.
  intros H1 H2 H3. destruct (extend_path c (fun _ => w) 0 Hwf) as (r & Hr & Hx); auto.
  - split; [auto|]. intros t Ht. lia.
  - exists r. split; auto. rewrite Hx by lia. auto.
Qed.

Lemma bad_at_1 w w' : steps w w' -> initial_values c w -> bad_state w' ->
  exists r, run c r /\ is_bad c flag (r 1).
Proof.
  intros (H1 & H2) H3 (w'' & H4 & H5 & H6).
  destruct (extend_path c (fun t => match t with O => w | S _ => w'' end) 1 Hwf) as (r & Hr & Hx); auto.
  - split.
    + intros [|t] Ht; auto.
    + intros [|t] Ht; [|lia]. intros v nx rs L. rewrite (H5 v) by (exists nx, rs; auto). apply (H2 _ _ _ L).
  - exists r. split; auto. rewrite Hx by lia. auto.
Qed.

Lemma prove_ok (b : build) (R : Random) (O : Ic3Ops) (good : ox O -> Prop) : random_ok R -> ops_ok O good ->
  forall fuel st, good (st_ops st) -> frames_ok (o_clauses O (st_ops st)) ->
  (b = Debug -> o_clauses O (st_ops st) = []) ->
  post (ic3_prove b R O s fuel st) overlong (fuel <= states c * (states c + 3))
    (fun r => result_ok (fst r) /\
       good (st_ops (snd r)) /\ frames_ok (o_clauses O (st_ops (snd r))) /\
       (~ safe_before c flag 2 -> o_clauses O (st_ops (snd r)) = o_clauses O (st_ops st)) /\
       (safe_before c flag 2 -> o_clauses O (st_ops (snd r)) <> []) /\
       (forall inv, fst r = Proof inv -> forall w, wires_ok c w -> initial_values c w -> ~ is_bad c flag w)).
Proof.
  intros HR HO fuel st Hg Hfr Hempty. unfold ic3_prove.
  eapply bind_okay; [apply op_okay; apply (ok_bad_0 _ _ HO); auto|].
  intros (r0 & st1) ((Hg1 & Ec1 & H0) & _). cbn [fst snd] in *. destruct r0 as [|asg].
  2:{ destruct H0 as (w & H1 & H2 & H3). destruct (bad_at_0 w H1 H2 H3) as (r & Hr & Hb).
      cbn. rewrite Ec1. split; [|split; [auto|split; [auto|split; [auto|split; [|discriminate]]]]].
      - assert (X : safe_before c flag (N.to_nat 0)) by (intros x Hx t Ht; simpl in Ht; lia).
        split; [exists r, 0; auto|]. split; [exact X|]. left. split; [lia|]. split; [exact X|]. exists r. auto.
      - intros X. elim (X r Hr 0); auto; lia. }
  eapply bind_okay; [apply op_okay; apply (ok_bad_1 _ _ HO); auto|].
  intros (r1 & st2) ((Hg2 & Ec2 & H1) & _). cbn [fst snd] in *. rewrite Ec1 in Ec2. destruct r1 as [|asg].
  2:{ destruct H1 as (w & w' & A1 & A3 & A4). destruct (bad_at_1 w w' A1 A3 A4) as (r & Hr & Hb).
      cbn. rewrite Ec2. split; [|split; [auto|split; [auto|split; [auto|split; [|discriminate]]]]].
      - assert (X : safe_before c flag (N.to_nat 1)).
        { intros x (R1 & R2 & R3) t Ht. simpl in Ht. assert (t = 0) by lia. subst t. apply H0; auto. }
        split; [exists r, 1; auto|]. split; [exact X|]. left. split; [lia|]. split; [exact X|]. exists r. auto.
      - intros X. elim (X r Hr 1); auto; lia. }
  assert (Hsafe2 : safe_before c flag 2).
  { intros w (R1 & R2 & R3) t Ht. destruct t as [|[|t]]; [apply H0; auto| |lia]. intros Hb.
    apply (H1 (w 0) (w 1)); [split; auto|auto|]. exists (w 1). split; auto. split; auto. apply same_latches_refl. }
  unfold op_ at 1. destruct (ok_push _ _ HO (st_ops st2) Hg2) as (x & Ex & Hgx & Ecx).
  rewrite Ex. cbn [bind]. unfold op_ at 1. cbn [st_ops].
  destruct (ok_push _ _ HO x Hgx) as (x' & Ex' & Hgx' & Ecx'). rewrite Ex'. cbn [bind].
  assert (Ecls : o_clauses O x' = o_clauses O (st_ops st) ++ [cnf_new; cnf_new]).
  { rewrite Ecx', Ecx, Ec2, <- app_assoc. reflexivity. }
  eapply post_impl; [apply (prove_loop_ok H0 b R O good HR HO fuel fuel 0)|..].
  - split; [auto|]. cbn [st_ops]. rewrite Ecls. exact Hfr.
  - cbn [st_ops]. intros w w' Hst (_ & Hw). apply (H1 w w' Hst). exact Hw.
  - lia.
  - intros Hb. cbn [st_ops]. rewrite Ecls, (Hempty Hb). reflexivity.
  - auto.
  - pose proof (states_pos c). intros [HF|HF]; auto.
    assert (states c * 1 <= states c * (states c + 3)) by (apply Nat.mul_le_mono_l; lia). lia.
  - intros r (Hr & Hg3 & Hf3). split; [auto|]. split; [auto|]. split; [eapply frames_ok_after; eauto|].
    split; [tauto|]. split; [|auto]. intros _ E. pose proof (f_len _ _ Hf3) as L. rewrite E in L.
    cbn [length] in L. lia.
Qed.

End Core.
