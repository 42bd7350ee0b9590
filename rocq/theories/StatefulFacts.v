(** The stateful adapters: an invariant along every history of calls. *)
From Coq Require Import Sorted.
From Verif Require Import Base Formulas FormulaLogic Solvers Spec SpecText SpecSolver Tac
  FormulasFacts TextFacts LogicFacts BruteFacts SolverFacts.
Open Scope Z_scope.

(* --------------------------------------------------------------------- the literal table *)

Definition entry (table : list Z) (v : N) : Z := nth (N.to_nat v) table 0.

Record table_ok (table : list Z) (next : Z) : Prop := {
  to_range : forall t, In t table -> 1 <= t < next;
  to_nodup : NoDup table;
  to_mono : forall i j, (i <= j < length table)%nat -> nth i table 0 <= nth j table 0;
  to_len : Z.of_nat (length table) <= 2147483648;
  to_next : 1 <= next }.

Lemma push_new_spec k next table :
  push_new k next table = (table ++ map (fun i => next + Z.of_nat i) (seq 0 k), next + Z.of_nat k).
Proof.
  revert next table; induction k as [|k IH]; intros next table.
  - simpl. rewrite app_nil_r. f_equal; lia.
  - cbn [push_new]. rewrite IH. rewrite <- app_assoc. f_equal; [|lia]. f_equal.
    cbn [seq map app]. f_equal; [lia|].
    rewrite <- seq_shift, map_map. apply map_ext. intros; lia.
Qed.

Lemma table_ok_snoc table next : table_ok table next -> Z.of_nat (length table) < 2147483648 ->
  table_ok (table ++ [next]) (next + 1).
Proof.
  intros [H1 H2 H3 H4 H5] Hl. constructor.
  - intros t Ht. apply in_app_iff in Ht as [Ht|[<-|[]]]; [apply H1 in Ht|]; lia.
  - eapply Permutation_NoDup; [apply Permutation_cons_append|]. constructor; auto.
    intros Hin. apply H1 in Hin. lia.
  - intros i j Hij. rewrite app_length in Hij. simpl in Hij.
    destruct (Nat.lt_ge_cases j (length table)).
    + rewrite !app_nth1 by lia. apply H3; lia.
    + assert (j = length table) by lia. subst j.
      rewrite (app_nth2 _ _ _ (le_n _)), Nat.sub_diag. simpl.
      destruct (Nat.lt_ge_cases i (length table)).
      * rewrite app_nth1 by lia.
        assert (Hin : In (nth i table 0) table) by (apply nth_In; lia).
        apply H1 in Hin. lia.
      * rewrite app_nth2 by lia. replace (i - length table)%nat with O by lia. simpl. lia.
  - rewrite app_length. simpl. lia.
  - lia.
Qed.

Lemma push_new_ok k next table : table_ok table next ->
  Z.of_nat (length table) + Z.of_nat k <= 2147483648 ->
  table_ok (fst (push_new k next table)) (snd (push_new k next table)).
Proof.
  revert next table; induction k as [|k IH]; intros next table H Hk; auto.
  cbn [push_new]. apply IH; [apply table_ok_snoc; auto; lia|]. rewrite app_length. simpl. lia.
Qed.

Lemma push_new_next k next table : next <= snd (push_new k next table).
Proof. rewrite push_new_spec. simpl. lia. Qed.

(** The relation between the engine's clauses, the table and the clauses given so far. *)
Record knows (raw : list (list Z)) (table : list Z) (next : Z) (cs : list Clause) : Prop := {
  kn_table : table_ok table next;
  kn_raw : forall c z, In c raw -> In z c -> z <> 0 /\ Z.abs z < next;
  kn_cs : forall c l, In c cs -> In l (clause_lits c) ->
    lit_legal l /\ (N.to_nat (lit_var l) < length table)%nat;
  kn_sound : forall a, ints_true a raw -> clauses_true (fun v => a (entry table v)) cs;
  kn_complete : forall a, (forall t, 1 <= t < next -> ~ In t table -> a t = false) ->
    clauses_true (fun v => a (entry table v)) cs -> ints_true a raw }.

Lemma knows_init : knows [] [] 1 [].
Proof.
  constructor.
  - constructor; simpl; try lia; try constructor; try (intros t []).
  - intros c z [].
  - intros c l [].
  - intros a _ c [].
  - intros a _ _ c [].
Qed.

Lemma clause_true_ext (v w : valuation) c :
  (forall l, In l (clause_lits c) -> v (lit_var l) = w (lit_var l)) ->
  clause_true v c -> clause_true w c.
Proof.
  intros E (l & Hl & Ht). exists l; split; auto. revert Ht. unfold lit_true. rewrite E; auto.
Qed.

Lemma clauses_true_ext (v w : valuation) cs :
  (forall c l, In c cs -> In l (clause_lits c) -> v (lit_var l) = w (lit_var l)) ->
  clauses_true v cs -> clauses_true w cs.
Proof. intros E H c Hc. eapply clause_true_ext; [|apply H; auto]. eauto. Qed.

Lemma knows_extend raw table next cs k : knows raw table next cs ->
  Z.of_nat (length table) + Z.of_nat k <= 2147483648 ->
  knows raw (fst (push_new k next table)) (snd (push_new k next table)) cs.
Proof.
  intros [H1 H2 H3 H4 H5] Hk. pose proof (push_new_ok k next table H1 Hk) as Hok.
  pose proof (push_new_next k next table) as Hnx.
  rewrite push_new_spec in *. cbn [fst snd] in *.
  set (ext := map _ _) in *.
  assert (En : forall v, (N.to_nat v < length table)%nat -> entry (table ++ ext) v = entry table v).
  { intros v Hv. unfold entry. apply app_nth1; auto. }
  constructor; auto.
  - intros c z Hc Hz. destruct (H2 c z Hc Hz). split; auto; lia.
  - intros c l Hc Hl. destruct (H3 c l Hc Hl) as [Hq1 Hq2]. split; auto. rewrite app_length. lia.
  - intros a Ha. apply H4 in Ha. revert Ha. apply clauses_true_ext. intros c l Hc Hl.
    rewrite En; auto. apply (H3 c l Hc Hl).
  - intros a Hf Ha. apply H5.
    + intros t Ht Hn. destruct (in_dec Z.eq_dec t ext) as [He|He].
      * unfold ext in He. apply in_map_iff in He as (i & <- & Hi). lia.
      * apply Hf; [lia|]. rewrite in_app_iff. tauto.
    + revert Ha. apply clauses_true_ext. intros c l Hc Hl.
      rewrite En; auto. apply (H3 c l Hc Hl).
Qed.

(** Translation of literals. *)
Definition tr (table : list Z) (l : N) : Z :=
  if lit_neg l then - entry table (lit_var l) else entry table (lit_var l).

Lemma translate_ok table ls : (forall l, In l ls -> (N.to_nat (lit_var l) < length table)%nat) ->
  translate table ls = Ok (map (tr table) ls).
Proof.
  intros H. unfold translate. apply mapM_total. intros l Hl. unfold table_literal.
  rewrite get_number_div, is_negated_odd. fold (lit_var l). fold (lit_neg l).
  unfold index, unwrap, tr, entry.
  rewrite (nth_error_nth' table 0) by auto. cbn [bind]. destruct (lit_neg l); reflexivity.
Qed.

Lemma int_true_tr table next a l : table_ok table next -> (N.to_nat (lit_var l) < length table)%nat ->
  (int_true a (tr table l) <-> lit_true (fun v => a (entry table v)) l).
Proof.
  intros Ht Hl. assert (Hin : In (entry table (lit_var l)) table) by (apply nth_In; auto).
  apply (to_range _ _ Ht) in Hin. unfold int_true, lit_true, tr.
  destruct (lit_neg l).
  - destruct (- entry table (lit_var l) <? 0) eqn:E; [|lia]. rewrite Z.opp_involutive.
    destruct (a (entry table (lit_var l))); simpl; split; congruence.
  - destruct (entry table (lit_var l) <? 0) eqn:E; [lia|].
    destruct (a (entry table (lit_var l))); simpl; split; congruence.
Qed.

Lemma tr_nonzero table next l : table_ok table next -> (N.to_nat (lit_var l) < length table)%nat ->
  tr table l <> 0.
Proof.
  intros Ht Hl. assert (Hin : In (entry table (lit_var l)) table) by (apply nth_In; auto).
  apply (to_range _ _ Ht) in Hin. unfold tr. destruct (lit_neg l); lia.
Qed.

Lemma tr_bound table next l : table_ok table next -> (N.to_nat (lit_var l) < length table)%nat ->
  tr table l <> 0 /\ Z.abs (tr table l) < next.
Proof.
  intros Ht Hl. assert (Hin : In (entry table (lit_var l)) table) by (apply nth_In; auto).
  apply (to_range _ _ Ht) in Hin. unfold tr. destruct (lit_neg l); lia.
Qed.

Lemma ints_true_app a r1 r2 : ints_true a (r1 ++ r2) <-> ints_true a r1 /\ ints_true a r2.
Proof.
  unfold ints_true. setoid_rewrite in_app_iff. split.
  - intros H; split; auto.
  - intros [H1 H2] c [Hc|Hc]; auto.
Qed.

Lemma clauses_true_app a r1 r2 : clauses_true a (r1 ++ r2) <-> clauses_true a r1 /\ clauses_true a r2.
Proof.
  unfold clauses_true. setoid_rewrite in_app_iff. split.
  - intros H; split; auto.
  - intros [H1 H2] c [Hc|Hc]; auto.
Qed.

Lemma ints_true_one a c : ints_true a [c] <-> exists z, In z c /\ int_true a z.
Proof.
  unfold ints_true. split.
  - intros H; apply H; left; auto.
  - intros H d [<-|[]]; auto.
Qed.

Lemma tr_clause table next a c : table_ok table next ->
  (forall l, In l (clause_lits c) -> (N.to_nat (lit_var l) < length table)%nat) ->
  ((exists z, In z (map (tr table) (clause_lits c)) /\ int_true a z) <->
   clause_true (fun v => a (entry table v)) c).
Proof.
  intros Ht Hl. unfold clause_true. split.
  - intros (z & Hz & Hi). apply in_map_iff in Hz as (l & <- & Hin). exists l; split; auto.
    eapply int_true_tr; eauto.
  - intros (l & Hin & Hi). exists (tr table l). split; [apply in_map; auto|].
    eapply int_true_tr; eauto.
Qed.

Lemma knows_add raw table next cs c : knows raw table next cs -> clause_legal c ->
  (forall l, In l (clause_lits c) -> (N.to_nat (lit_var l) < length table)%nat) ->
  knows (raw ++ [map (tr table) (clause_lits c)]) table next (cs ++ [c]).
Proof.
  intros [H1 H2 H3 H4 H5] Hl Hr. constructor; auto.
  - intros d z Hd Hz. apply in_app_iff in Hd as [Hd|[<-|[]]]; eauto.
    apply in_map_iff in Hz as (l & <- & Hin). eapply tr_bound; eauto.
  - intros d l Hd Hin. apply in_app_iff in Hd as [Hd|[<-|[]]]; eauto. split; auto.
    unfold clause_legal in Hl. rewrite Forall_forall in Hl; auto.
  - intros a Ha. apply ints_true_app in Ha as [Ha Hb]. apply clauses_true_app. split; auto.
    apply ints_true_one in Hb. intros d [<-|[]]. eapply tr_clause; eauto.
  - intros a Hf Ha. apply clauses_true_app in Ha as [Ha Hb]. apply ints_true_app. split; auto.
    apply ints_true_one. eapply tr_clause; eauto. apply Hb; left; auto.
Qed.

Lemma knows_temp raw table next cs zs : knows raw table next cs ->
  (forall z, In z zs -> z <> 0 /\ Z.abs z < next) ->
  knows ((raw ++ [zs ++ [- next]]) ++ [[- next]]) table (next + 1) cs.
Proof.
  intros [H1 H2 H3 H4 H5] Hz. pose proof (to_next _ _ H1) as Hn. constructor; auto.
  - destruct H1 as [T1 T2 T3 T4 T5]. constructor; auto; [|lia].
    intros t Ht; apply T1 in Ht; lia.
  - intros d z Hd Hin. rewrite !in_app_iff in Hd. destruct Hd as [[Hd|[<-|[]]]|[<-|[]]].
    + destruct (H2 d z Hd Hin); lia.
    + apply in_app_iff in Hin as [Hin|[<-|[]]]; [apply Hz in Hin|]; lia.
    + destruct Hin as [<-|[]]; lia.
  - intros a Ha. apply ints_true_app in Ha as [Ha _]. apply ints_true_app in Ha as [Ha _]. auto.
  - intros a Hf Ha.
    assert (Hv : int_true a (- next)).
    { unfold int_true. destruct (- next <? 0) eqn:E; [|lia]. rewrite Z.opp_involutive.
      rewrite Hf; auto; [lia|]. intros Hin. apply (to_range _ _ H1) in Hin. lia. }
    apply ints_true_app. split; [apply ints_true_app; split|].
    + apply H5; auto. intros t Ht. apply Hf. lia.
    + apply ints_true_one. exists (- next). rewrite in_app_iff. simpl; auto.
    + apply ints_true_one. exists (- next). simpl; auto.
Qed.

(* ------------------------------------------------------------ decoding of models *)

Lemma in_enumerate table j t : In (j, t) (enumerate_skip1 table) <->
  exists i, (1 <= i < length table)%nat /\ j = Z.of_nat i /\ t = nth i table 0.
Proof.
  unfold enumerate_skip1. destruct table as [|t0 table].
  - simpl. split; [intros []|]. intros (i & Hi & _). lia.
  - cbn [tl length]. replace (S (length table) - 1)%nat with (length table) by lia.
    assert (G : forall (l : list Z) k, In (j, t) (combine (map Z.of_nat (seq k (length l))) l) <->
      exists i, (i < length l)%nat /\ j = Z.of_nat (k + i) /\ t = nth i l 0).
    { induction l as [|x l IH]; intros k; cbn [length seq map combine In].
      - split; [intros []|]. intros (i & Hi & _); simpl in Hi; lia.
      - rewrite IH. split.
        + intros [H|(i & Hi & E1 & E2)].
          * inv H. exists O. simpl. repeat split; try lia.
          * exists (S i). simpl. repeat split; auto; lia.
        + intros (i & Hi & E1 & E2). destruct i as [|i].
          * left. simpl in E2. subst. f_equal. f_equal; lia.
          * right. exists i. simpl in E2. repeat split; auto; lia. }
    rewrite G. split.
    + intros (i & Hi & E1 & E2). exists (S i). simpl. repeat split; auto; lia.
    + intros (i & Hi & E1 & E2). destruct i as [|i]; [lia|].
      exists i. simpl in E2. repeat split; auto; lia.
Qed.

(** The decoded assignment: values of the table entries 1, 2, ... *)
Lemma decode b table next (value : Z -> option bool) zs : table_ok table next ->
  (forall z, In z zs <-> exists j t x, In (j, t) (enumerate_skip1 table) /\ value t = Some x /\
       z = if x then j else - j) ->
  exists asg, from_dimacs_assignment b zs = Ok asg /\
    (forall v, (1 <= v)%N -> (N.to_nat v < length table)%nat ->
       get_value asg v = value (entry table v)) /\
    (forall v, (1 <= v)%N -> (length table <= N.to_nat v)%nat -> get_value asg v = None).
Proof.
  intros Ht Hz. pose proof (to_len _ _ Ht) as Hlen.
  destruct (from_dimacs_get_value b zs) as (asg & E & Hg).
  { apply Forall_forall. intros z Hin. apply Hz in Hin as (j & t & x & Hj & _ & ->).
    apply in_enumerate in Hj as (i & Hi & -> & ->). unfold good_int. destruct x; lia. }
  exists asg. split; auto.
  assert (Hpos : forall v, (1 <= v)%N -> (In (Z.of_N v) zs <->
     (N.to_nat v < length table)%nat /\ value (entry table v) = Some true)).
  { intros v Hv. rewrite Hz. split.
    - intros (j & t & x & Hj & Hx & Ev). apply in_enumerate in Hj as (i & Hi & -> & ->).
      destruct x; [|lia]. assert (i = N.to_nat v) by lia. subst i. split; [lia|auto].
    - intros [Hl Hx]. exists (Z.of_N v), (entry table v), true. split; auto.
      apply in_enumerate. exists (N.to_nat v). repeat split; auto; lia. }
  assert (Hneg : forall v, (1 <= v)%N -> (In (- Z.of_N v) zs <->
     (N.to_nat v < length table)%nat /\ value (entry table v) = Some false)).
  { intros v Hv. rewrite Hz. split.
    - intros (j & t & x & Hj & Hx & Ev). apply in_enumerate in Hj as (i & Hi & -> & ->).
      destruct x; [lia|]. assert (i = N.to_nat v) by lia. subst i. split; [lia|auto].
    - intros [Hl Hx]. exists (Z.of_N v), (entry table v), false. split; auto.
      apply in_enumerate. exists (N.to_nat v). repeat split; auto; lia. }
  split.
  - intros v Hv Hl. destruct (Hg v Hv) as (G1 & G2 & G3). rewrite Hpos, Hneg in * by auto.
    destruct (value (entry table v)) as [[]|] eqn:Ev.
    + apply G1; auto.
    + apply G2; split; auto. intros [_ X]; discriminate.
    + apply G3; split; intros [_ X]; discriminate.
  - intros v Hv Hl. destruct (Hg v Hv) as (_ & _ & G3). rewrite Hpos, Hneg in * by auto.
    apply G3; split; intros [X _]; lia.
Qed.

Fixpoint index_of (t : Z) (table : list Z) : option nat :=
  match table with
  | [] => None
  | x :: r => if Z.eqb x t then Some O else option_map S (index_of t r)
  end.

Lemma index_of_some t table i : index_of t table = Some i -> (i < length table)%nat /\ nth i table 0 = t.
Proof.
  revert i; induction table as [|x r IH]; simpl; intros i H; [discriminate|].
  destruct (x =? t) eqn:E.
  - inv H. split; [lia|]. lia.
  - destruct (index_of t r); [|discriminate]. inv H. destruct (IH n eq_refl). split; [lia|auto].
Qed.

Lemma index_of_nth table i : NoDup table -> (i < length table)%nat -> index_of (nth i table 0) table = Some i.
Proof.
  revert i; induction table as [|x r IH]; simpl; intros i H Hi; [lia|].
  inv H. destruct i as [|i].
  - rewrite Z.eqb_refl. auto.
  - destruct (x =? nth i r 0) eqn:E.
    + exfalso. apply H2. assert (x = nth i r 0) by lia. subst x. apply nth_In. lia.
    + rewrite IH by (auto; lia). reflexivity.
Qed.

Lemma index_of_none t table : index_of t table = None -> ~ In t table.
Proof.
  induction table as [|x r IH]; simpl; intros H; auto.
  destruct (x =? t) eqn:E; [discriminate|]. destruct (index_of t r); [discriminate|].
  intros [->|Hin]; [lia|]. apply IH; auto.
Qed.

(** The engine valuation of a valuation of the variables (elsewhere [d]). *)
Definition engine_val (table : list Z) (v : valuation) (d : Z -> bool) : Z -> bool :=
  fun t => match index_of t table with
           | Some (S i) => v (N.of_nat (S i))
           | _ => d t
           end.

Lemma engine_val_entry table next v d x : table_ok table next -> (1 <= x)%N ->
  (N.to_nat x < length table)%nat -> engine_val table v d (entry table x) = v x.
Proof.
  intros Ht Hx Hl. unfold engine_val, entry. rewrite index_of_nth by (auto; apply (to_nodup _ _ Ht)).
  destruct (N.to_nat x) as [|i] eqn:E; [lia|]. f_equal. lia.
Qed.


(** The temporary part of a query. *)
Definition all_in (table : list Z) (cs : list Clause) : Prop :=
  forall c l, In c cs -> In l (clause_lits c) ->
    lit_legal l /\ (N.to_nat (lit_var l) < length table)%nat.

Lemma clauses_engine_val table next v d cs : table_ok table next -> all_in table cs ->
  (clauses_true (fun x => engine_val table v d (entry table x)) cs <-> clauses_true v cs).
Proof.
  intros Ht Hc. split; apply clauses_true_ext; intros c l Hin Hl; destruct (Hc c l Hin Hl) as [H1 H2];
    apply lit_legal_var in H1; [|symmetry]; eapply engine_val_entry; eauto; lia.
Qed.

(** A query to an engine: clauses [raw ++ extra], assumptions [asm]; it stands for the clauses
    [cs ++ temp]. *)
Record query (raw : list (list Z)) (asm : list Z) (table : list Z) (next : Z)
  (all : list Clause) : Prop := {
  q_table : table_ok table next;
  q_raw : forall c z, In c (asm :: raw) -> In z c -> z <> 0 /\ Z.abs z < next;
  q_all : all_in table all;
  q_sound : forall a, ints_true a raw -> all_int_true a asm ->
     clauses_true (fun v => a (entry table v)) all;
  q_complete : ~ ints_satisfiable raw asm -> ~ satisfiable all;
  q_max : forall v, (1 <= v <= max_var all)%N ->
     exists c z, In c (asm :: raw) /\ In z c /\ entry table v <= Z.abs z }.

Lemma temp_in cube clause table :
  (forall q, cube = Some q -> forall l, In l (cube_lits q) -> lit_legal l /\ (N.to_nat (lit_var l) < length table)%nat) ->
  (forall c, clause = Some c -> forall l, In l (clause_lits c) -> lit_legal l /\ (N.to_nat (lit_var l) < length table)%nat) ->
  all_in table (temp_clauses cube clause).
Proof.
  intros H1 H2 c l Hc Hl. unfold temp_clauses in Hc.
  apply in_app_iff in Hc as [Hc|Hc].
  - destruct cube as [q|]; [|destruct Hc]. apply in_map_iff in Hc as (x & <- & Hx).
    destruct Hl as [<-|[]]. eauto.
  - destruct clause as [d|]; [|destruct Hc]. destruct Hc as [<-|[]]. eauto.
Qed.

Definition cube_asm (table : list Z) (cube : option Cube) : list Z :=
  match cube with Some q => map (tr table) (cube_lits q) | None => [] end.

Lemma cube_asm_true table next a cube : table_ok table next ->
  (forall q, cube = Some q -> forall l, In l (cube_lits q) -> lit_legal l /\ (N.to_nat (lit_var l) < length table)%nat) ->
  (all_int_true a (cube_asm table cube) <->
   clauses_true (fun v => a (entry table v)) (temp_clauses cube None)).
Proof.
  intros Ht Hq. unfold cube_asm, temp_clauses. rewrite app_nil_r.
  destruct cube as [q|]; [|split; [intros _ c []|intros _ z []]].
  specialize (Hq q eq_refl). split.
  - intros H c Hc. apply in_map_iff in Hc as (l & <- & Hl). exists l; split; [left; auto|].
    destruct (Hq l Hl). eapply int_true_tr; eauto. apply H. apply in_map; auto.
  - intros H z Hz. apply in_map_iff in Hz as (l & <- & Hl).
    destruct (H (mkClause [l])) as (x & [<-|[]] & Hx).
    + apply in_map_iff; eauto.
    + destruct (Hq l Hl). eapply int_true_tr; eauto.
Qed.

Lemma temp_split cube c : temp_clauses cube (Some c) = temp_clauses cube None ++ [c].
Proof. unfold temp_clauses. rewrite app_nil_r. reflexivity. Qed.

Lemma cube_asm_bound table next cube : table_ok table next ->
  (forall q, cube = Some q -> forall l, In l (cube_lits q) -> lit_legal l /\ (N.to_nat (lit_var l) < length table)%nat) ->
  forall z, In z (cube_asm table cube) -> z <> 0 /\ Z.abs z < next.
Proof.
  intros Ht Hq z Hin. unfold cube_asm in Hin. destruct cube as [q|]; [|destruct Hin].
  apply in_map_iff in Hin as (l & <- & Hl). apply (tr_bound table next); auto. eapply Hq; eauto.
Qed.

Lemma entry_mono table next v w : table_ok table next -> (v <= w)%N -> (N.to_nat w < length table)%nat ->
  entry table v <= entry table w.
Proof. intros Ht Hv Hw. unfold entry. apply (to_mono _ _ Ht). lia. Qed.

Lemma abs_tr table next l : table_ok table next -> (N.to_nat (lit_var l) < length table)%nat ->
  Z.abs (tr table l) = entry table (lit_var l).
Proof.
  intros Ht Hl. assert (Hin : In (entry table (lit_var l)) table) by (apply nth_In; auto).
  apply (to_range _ _ Ht) in Hin. unfold tr. destruct (lit_neg l); lia.
Qed.

(** Every literal given is among the engine's clauses: needed for definedness of models. *)
Definition covers (raw : list (list Z)) (table : list Z) (cs : list Clause) : Prop :=
  forall c l, In c cs -> In l (clause_lits c) -> exists d, In d raw /\ In (tr table l) d.

Lemma query_max raw asm table next all : table_ok table next -> all_in table all ->
  covers (asm :: raw) table all ->
  forall v, (1 <= v <= max_var all)%N ->
     exists c z, In c (asm :: raw) /\ In z c /\ entry table v <= Z.abs z.
Proof.
  intros Ht Hin Hc v Hv. destruct (max_var_witness all) as [E|(c & l & Hcin & Hl & E)]; [lia|].
  destruct (Hc c l Hcin Hl) as (d & Hd & Hz). exists d, (tr table l). split; auto. split; auto.
  destruct (Hin c l Hcin Hl). rewrite (abs_tr table next) by auto. eapply entry_mono; eauto. lia.
Qed.

Lemma covers_cons raw table cs asm : covers raw table cs -> covers (asm :: raw) table cs.
Proof. intros H c l Hc Hl. destruct (H c l Hc Hl) as (d & Hd & Hz). exists d; simpl; auto. Qed.

Lemma covers_app raw table cs ds : covers raw table cs -> covers raw table ds -> covers raw table (cs ++ ds).
Proof. intros H1 H2 c l Hc Hl. apply in_app_iff in Hc as [Hc|Hc]; eauto. Qed.

Lemma covers_more raw raw' table cs : covers raw table cs -> (forall d, In d raw -> In d raw') -> covers raw' table cs.
Proof. intros H1 H2 c l Hc Hl. destruct (H1 c l Hc Hl) as (d & Hd & Hz). eauto. Qed.

Lemma covers_asm raw table cube : covers (cube_asm table cube :: raw) table (temp_clauses cube None).
Proof.
  intros c l Hc Hl. unfold temp_clauses in Hc. rewrite app_nil_r in Hc.
  destruct cube as [q|]; [|destruct Hc]. apply in_map_iff in Hc as (x & <- & Hx).
  destruct Hl as [<-|[]]. eexists. split; [left; reflexivity|]. apply in_map; auto.
Qed.

Definition none_val : Z -> bool := fun _ => false.

Lemma knows_query raw table next cs cube : knows raw table next cs -> covers raw table cs ->
  (forall q, cube = Some q -> forall l, In l (cube_lits q) -> lit_legal l /\ (N.to_nat (lit_var l) < length table)%nat) ->
  query raw (cube_asm table cube) table next (cs ++ temp_clauses cube None).
Proof.
  intros Hk Hcov Hq. pose proof Hk as [H1 H2 H3 H4 H5].
  assert (Hall : all_in table (cs ++ temp_clauses cube None)).
  { intros c l Hc Hl. apply in_app_iff in Hc as [Hc|Hc]; [eapply H3; eauto|].
    eapply (temp_in cube None); eauto. intros; discriminate. }
  constructor; auto.
  - intros d z [<-|Hd] Hz; [eapply cube_asm_bound; eauto|eauto].
  - intros a Ha Hb. apply clauses_true_app. split; auto. eapply cube_asm_true; eauto.
  - intros Hu [v Hv]. apply Hu. exists (engine_val table v none_val).
    apply (clauses_engine_val table next v none_val _ H1 Hall) in Hv.
    apply clauses_true_app in Hv as [Hv1 Hv2]. split.
    + apply H5; auto. intros t _ Hn. unfold engine_val.
      destruct (index_of t table) as [i|] eqn:E; auto. exfalso. apply Hn.
      apply index_of_some in E as [E1 <-]. apply nth_In; auto.
    + eapply cube_asm_true; eauto.
  - apply query_max with (next := next); auto. apply covers_app.
    + apply covers_cons; auto.
    + apply covers_asm.
Qed.

Lemma knows_query_clause raw table next cs cube c : knows raw table next cs -> covers raw table cs ->
  (forall q, cube = Some q -> forall l, In l (cube_lits q) -> lit_legal l /\ (N.to_nat (lit_var l) < length table)%nat) ->
  (forall l, In l (clause_lits c) -> lit_legal l /\ (N.to_nat (lit_var l) < length table)%nat) ->
  query (raw ++ [map (tr table) (clause_lits c) ++ [- next]]) (next :: cube_asm table cube)
    table (next + 1) (cs ++ temp_clauses cube (Some c)).
Proof.
  intros Hk Hcov Hq Hc. pose proof Hk as [H1 H2 H3 H4 H5]. pose proof (to_next _ _ H1) as Hn.
  assert (Hall : all_in table (cs ++ temp_clauses cube (Some c))).
  { intros d l Hd Hl. apply in_app_iff in Hd as [Hd|Hd]; [eapply H3; eauto|].
    eapply (temp_in cube (Some c)); eauto. intros d' E; inv E; auto. }
  assert (H1' : table_ok table (next + 1)).
  { destruct H1 as [T1 T2 T3 T4 T5]. constructor; auto; [|lia]. intros t Ht; apply T1 in Ht; lia. }
  constructor; auto.
  - intros d z [<-|Hd] Hz.
    + destruct Hz as [<-|Hz]; [lia|].
      destruct (cube_asm_bound table next cube H1 Hq z Hz); lia.
    + apply in_app_iff in Hd as [Hd|[<-|[]]]; [destruct (H2 d z Hd Hz); lia|].
      apply in_app_iff in Hz as [Hz|[<-|[]]]; [|lia].
      apply in_map_iff in Hz as (l & <- & Hl). destruct (Hc l Hl) as [_ Hl'].
      destruct (tr_bound table next l H1 Hl'). lia.
  - intros a Ha Hb. apply ints_true_app in Ha as [Ha1 Ha2].
    assert (Hv : int_true a next) by (apply Hb; left; auto).
    assert (Hb' : all_int_true a (cube_asm table cube)) by (intros z Hz; apply Hb; right; auto).
    rewrite temp_split, app_assoc. apply clauses_true_app. split.
    + apply clauses_true_app. split; auto. eapply cube_asm_true; eauto.
    + intros d [<-|[]]. apply ints_true_one in Ha2 as (z & Hz & Hi).
      apply in_app_iff in Hz as [Hz|[<-|[]]].
      * eapply tr_clause; eauto. intros l Hl; apply Hc; auto.
      * exfalso. unfold int_true in Hi, Hv. destruct (- next <? 0) eqn:E1; [|lia].
        destruct (next <? 0) eqn:E2; [lia|]. rewrite Z.opp_involutive, Hv in Hi. discriminate.
  - intros Hu [v Hv]. apply Hu. set (d := fun t => t =? next). exists (engine_val table v d).
    apply (clauses_engine_val table next v d _ H1 Hall) in Hv.
    rewrite temp_split, app_assoc in Hv. apply clauses_true_app in Hv as [Hv Hv3].
    apply clauses_true_app in Hv as [Hv1 Hv2].
    assert (Hout : forall t, ~ In t table -> engine_val table v d t = (t =? next)).
    { intros t Hn'. unfold engine_val. destruct (index_of t table) as [i|] eqn:E; auto.
      exfalso. apply Hn'. apply index_of_some in E as [E1 <-]. apply nth_In; auto. }
    assert (Hnt : ~ In next table) by (intros Hin; apply (to_range _ _ H1) in Hin; lia).
    split.
    + apply ints_true_app. split.
      * apply H5; auto. intros t Ht Hn'. rewrite Hout by auto. lia.
      * apply ints_true_one. specialize (Hv3 c (or_introl eq_refl)).
        apply (tr_clause table next) in Hv3; auto; [|intros l Hl; apply Hc; auto].
        destruct Hv3 as (z & Hz & Hi). exists z; split; auto. apply in_app_iff; auto.
    + intros z [<-|Hz].
      * unfold int_true. destruct (next <? 0) eqn:E; [lia|]. rewrite Hout by auto. lia.
      * eapply cube_asm_true in Hv2; eauto.
  - apply query_max with (next := next + 1); auto. rewrite temp_split, app_assoc.
    apply covers_app; [apply covers_app|].
    + apply covers_cons. eapply covers_more; eauto. intros; apply in_app_iff; auto.
    + intros d l Hd Hl. destruct (covers_asm (raw ++ [map (tr table) (clause_lits c) ++ [- next]]) table cube d l Hd Hl) as (e & He & Hz).
      destruct He as [<-|He].
      * eexists; split; [left; reflexivity|]. right; auto.
      * exists e; split; [right; auto|auto].
    + intros d l [<-|[]] Hl. eexists; split; [right; apply in_app_iff; right; left; reflexivity|].
      apply in_app_iff; left. apply in_map; auto.
Qed.

(** A right engine answer decodes to a right answer. *)
Lemma query_sat raw asm table next all (value : Z -> option bool) asg :
  query raw asm table next all ->
  (forall a, (forall v x, 1 <= v -> value v = Some x -> a v = x) ->
     ints_true a raw /\ all_int_true a asm) ->
  (forall v, (1 <= v)%N -> (N.to_nat v < length table)%nat ->
     get_value asg v = value (entry table v)) ->
  satisfies_clauses asg all.
Proof.
  intros [H1 H2 H4 H5 H6 H7] He Hd v Hv.
  set (d := fun t => match value t with Some x => x | None => false end).
  apply (clauses_engine_val table next v d _ H1 H4).
  assert (Ha : forall t x, 1 <= t -> value t = Some x -> engine_val table v d t = x).
  { intros t x Ht Hx. unfold engine_val.
    assert (Hdt : d t = x) by (unfold d; rewrite Hx; auto).
    destruct (index_of t table) as [[|i]|] eqn:E; auto.
    apply index_of_some in E as [E1 E2]. apply Hv. rewrite Hd by lia.
    unfold entry. rewrite Nnat.Nat2N.id, E2. auto. }
  apply He in Ha. destruct Ha. apply H5; auto.
Qed.

Lemma query_defined raw asm table next all (value : Z -> option bool) asg :
  query raw asm table next all ->
  (forall c z v, In c (asm :: raw) -> In z c -> 1 <= v <= Z.abs z -> value v <> None) ->
  (forall v, (1 <= v)%N -> (N.to_nat v < length table)%nat ->
     get_value asg v = value (entry table v)) ->
  defined_upto asg (max_var all).
Proof.
  intros [H1 H2 H4 H5 H6 H7] He Hd v Hv.
  assert (Hl : (N.to_nat v < length table)%nat).
  { destruct (max_var_witness all) as [E|(c & l & Hc & Hl & E)]; [lia|].
    destruct (H4 c l Hc Hl). lia. }
  rewrite Hd by (auto; lia). destruct (H7 v Hv) as (c & z & Hc & Hz & Hle).
  apply (He c z); auto. assert (Hin : In (entry table v) table) by (apply nth_In; auto).
  apply (to_range _ _ H1) in Hin. lia.
Qed.

(* ------------------------------------------------------------------ common state view *)

(** What both adapters keep: engine clauses, table, next fresh literal. *)
Definition good (raw : list (list Z)) (table : list Z) (next : Z) (cs : list Clause) : Prop :=
  knows raw table next cs /\ covers raw table cs.

Lemma good_extend raw table next cs f : good raw table next cs -> cnf_legal f -> api_cnf f ->
  let r := push_new (missing (cnf_max f) table) next table in
  good raw (fst r) (snd r) cs /\ (N.to_nat (cnf_max f) < length (fst r))%nat /\
  exists ext, fst r = table ++ ext.
Proof.
  intros [Hk Hc] Hl Ha r. pose proof (max_var_legal _ Hl) as Hm.
  rewrite <- cnf_max_max_var in Hm by auto.
  pose proof (to_len _ _ (kn_table _ _ _ _ Hk)) as Hlen.
  assert (Hk' : knows raw (fst r) (snd r) cs).
  { apply knows_extend; auto. unfold missing, lenN. lia. }
  assert (He : exists ext, fst r = table ++ ext).
  { unfold r. rewrite push_new_spec. simpl. eauto. }
  split; [|split; auto].
  - split; auto. intros c l Hcin Hin. destruct (Hc c l Hcin Hin) as (d & Hd & Hz).
    exists d; split; auto. destruct He as [ext ->].
    destruct (kn_cs _ _ _ _ Hk c l Hcin Hin) as [_ Hlt].
    unfold tr, entry in *. rewrite app_nth1 by auto. auto.
  - unfold r. rewrite push_new_spec. simpl. rewrite app_length, map_length, seq_length.
    unfold missing, lenN. lia.
Qed.

Lemma good_add raw table next cs c : good raw table next cs -> clause_legal c ->
  (forall l, In l (clause_lits c) -> (N.to_nat (lit_var l) < length table)%nat) ->
  good (raw ++ [map (tr table) (clause_lits c)]) table next (cs ++ [c]).
Proof.
  intros [Hk Hc] Hl Hr. split; [apply knows_add; auto|].
  intros d l Hd Hin. apply in_app_iff in Hd as [Hd|[<-|[]]].
  - destruct (Hc d l Hd Hin) as (e & He & Hz). exists e; split; auto. apply in_app_iff; auto.
  - eexists; split; [apply in_app_iff; right; left; reflexivity|]. apply in_map; auto.
Qed.

Lemma good_temp raw table next cs zs : good raw table next cs ->
  (forall z, In z zs -> z <> 0 /\ Z.abs z < next) ->
  good ((raw ++ [zs ++ [- next]]) ++ [[- next]]) table (next + 1) cs.
Proof.
  intros [Hk Hc] Hz. split; [apply knows_temp; auto|].
  eapply covers_more; eauto. intros; rewrite !in_app_iff; auto.
Qed.

Lemma in_cnf_max f c l : api_cnf f -> In c (cnf_clauses f) -> In l (clause_lits c) -> (lit_var l <= cnf_max f)%N.
Proof. intros Ha Hc Hl. rewrite cnf_max_max_var by auto. eapply max_var_in; eauto. Qed.

Lemma in_cube_max q l : In l (cube_lits q) -> (lit_var l <= cnf_max (cube_to_cnf q))%N.
Proof.
  intros H. eapply (in_cnf_max (cube_to_cnf q) (mkClause [l])); auto with api.
  - apply in_cube_to_cnf; eauto.
  - left; auto.
Qed.

Lemma in_clause_cnf_max c l : api_clause c -> In l (clause_lits c) -> (lit_var l <= cnf_max (clause_to_cnf c))%N.
Proof.
  intros Hc H. eapply (in_cnf_max (clause_to_cnf c) c); auto with api.
  apply in_add_clause; auto.
Qed.

Lemma good_perm raw table next cs ds ds' : good raw table next (cs ++ ds) -> Permutation ds ds' ->
  good raw table next (cs ++ ds').
Proof.
  intros [[H1 H2 H3 H4 H5] Hc] Hp.
  assert (Hi : forall c, In c (cs ++ ds') <-> In c (cs ++ ds)).
  { intros c. rewrite !in_app_iff. split; intros [H|H]; auto; right.
    - eapply Permutation_in; [symmetry; exact Hp|auto].
    - eapply Permutation_in; [exact Hp|auto]. }
  split; [constructor; auto|].
  - intros c l Hin. apply H3. apply Hi; auto.
  - intros a Ha c Hin. apply (H4 a Ha). apply Hi; auto.
  - intros a Hf Ha. apply H5; auto. intros c Hin. apply Ha. apply Hi; auto.
  - intros c l Hin. apply Hc. apply Hi; auto.
Qed.

(** What a [solve] call must give, for an adapter whose answer is [r]. *)
Definition right_answer (defined : Prop) (r : SatResponse) (all : list Clause) : Prop :=
  match r with
  | Sat asg => satisfies_clauses asg all /\ (defined -> defined_upto asg (max_var all))
  | UnSat => ~ satisfiable all
  end.

(* ------------------------------------------------------------------------------ MiniSat *)

Definition mini_good (st : MiniState) (cs : list Clause) : Prop :=
  good (mini_clauses st) (mini_table st) (mini_next st) cs.

Lemma mini_extend_good st f cs : mini_good st cs -> cnf_legal f -> api_cnf f ->
  mini_good (mini_extend st f) cs /\ (N.to_nat (cnf_max f) < length (mini_table (mini_extend st f)))%nat /\
  exists ext, mini_table (mini_extend st f) = mini_table st ++ ext.
Proof.
  intros H Hl Ha. unfold mini_good, mini_extend.
  destruct (good_extend _ _ _ _ f H Hl Ha) as (G1 & G2 & G3).
  destruct (push_new _ _ _) as [table next]. simpl in *. auto.
Qed.

Lemma mini_add_good order st f cs : order_ok order -> mini_good st cs -> api_cnf f -> cnf_legal f ->
  exists st', mini_add_cnf order st f = Ok st' /\ mini_good st' (cs ++ cnf_clauses f).
Proof.
  intros Ho Hg Ha Hl. unfold mini_add_cnf.
  destruct (mini_extend_good st f cs Hg Hl Ha) as (Hg' & Hlen & _).
  set (st1 := mini_extend st f) in *.
  assert (Hr : forall c l, In c (order (cnf_clauses f)) -> In l (clause_lits c) ->
     (N.to_nat (lit_var l) < length (mini_table st1))%nat).
  { intros c l Hc Hin. apply (Permutation_in _ (Ho _)) in Hc.
    pose proof (in_cnf_max f c l Ha Hc Hin). lia. }
  pose proof (order_legal order f Ho Hl) as Hol.
  assert (G : forall ds cs st2, mini_good st2 cs -> mini_table st2 = mini_table st1 ->
     Forall clause_legal ds ->
     (forall c l, In c ds -> In l (clause_lits c) -> (N.to_nat (lit_var l) < length (mini_table st1))%nat) ->
     exists st', foldM (fun st c => cl <- translate (mini_table st) (clause_iter c) ;;
                     Ok (mini_add_raw st cl)) ds st2 = Ok st' /\ mini_good st' (cs ++ ds)).
  { induction ds as [|d ds IH]; intros cs2 st2 Hg2 Et Hl2 Hr2.
    - exists st2. rewrite app_nil_r. auto.
    - inv Hl2. cbn [foldM]. unfold clause_iter at 1. rewrite Et, translate_ok.
      2:{ intros l Hin; eapply Hr2; eauto; left; auto. }
      cbn [bind]. destruct (IH (cs2 ++ [d]) (mini_add_raw st2 (map (tr (mini_table st1)) (clause_lits d))))
        as (st' & E & Hst'); auto.
      + unfold mini_good. simpl. rewrite <- Et. apply good_add; auto.
        rewrite Et. intros l Hin; eapply Hr2; eauto; left; auto.
      + intros; eapply Hr2; eauto; right; auto.
      + exists st'. rewrite <- app_assoc in Hst'. auto. }
  destruct (G (order (cnf_clauses f)) cs st1) as (st' & E & Hst'); auto.
  exists st'. split; auto. eapply good_perm; eauto.
Qed.

Lemma mini_solve_raw_ok b E st asm all next : minisat_ok E ->
  query (mini_clauses st) asm (mini_table st) next all ->
  exists r, mini_solve_raw b E st asm =
      Ok (r, mkMiniState (mini_clauses st) (S (mini_calls st)) (mini_next st) (mini_table st)) /\
    right_answer True r all.
Proof.
  intros HE Hq. unfold mini_solve_raw.
  specialize (HE (mini_calls st) _ _
    (fun c z Hc Hz => proj1 (q_raw _ _ _ _ _ Hq c z (or_intror Hc) Hz))
    (fun Hz => proj1 (q_raw _ _ _ _ _ Hq asm 0 (or_introl eq_refl) Hz) eq_refl)).
  destruct (E _ _ _) as [model|].
  - destruct (decode b (mini_table st) next (fun t => Some (model t)) (mini_model_to_dimacs model (mini_table st)))
      as (asg & Ea & Hd & _).
    + apply (q_table _ _ _ _ _ Hq).
    + intros z. unfold mini_model_to_dimacs. rewrite in_map_iff. split.
      * intros ([j t] & <- & Hin). exists j, t, (model t). auto.
      * intros (j & t & x & Hin & Ex & ->). inv Ex. exists (j, t). auto.
    + rewrite Ea. cbn [bind]. eexists; split; [reflexivity|]. simpl. split.
      * eapply (query_sat _ _ _ _ _ (fun t => Some (model t))); eauto.
        intros a Hag. destruct HE as [HE1 HE2].
        assert (Hag' : forall z, z <> 0 -> (int_true a z <-> int_true model z)).
        { intros z Hz. unfold int_true. destruct (z <? 0) eqn:Ez.
          - rewrite (Hag (- z) (model (- z))) by (auto; lia). reflexivity.
          - rewrite (Hag z (model z)) by (auto; lia). reflexivity. }
        split.
        -- intros c Hc. destruct (HE1 c Hc) as (z & Hz & Hi). exists z; split; auto.
           apply Hag'; auto. eapply (q_raw _ _ _ _ _ Hq); [right|]; eauto.
        -- intros z Hz. apply Hag'; auto. eapply (q_raw _ _ _ _ _ Hq); [left; reflexivity|auto].
      * intros _. eapply (query_defined _ _ _ _ _ (fun t => Some (model t))); eauto.
        intros; discriminate.
  - eexists; split; [reflexivity|]. simpl. eapply q_complete; eauto.
Qed.

Lemma mini_solve_good b E st cube clause cs : minisat_ok E -> mini_good st cs ->
  (forall q, cube = Some q -> api_cube q /\ cube_legal q) ->
  (forall c, clause = Some c -> api_clause c /\ clause_legal c) ->
  exists r st', mini_solve b E st cube clause = Ok (r, st') /\ mini_good st' cs /\
    right_answer True r (cs ++ temp_clauses cube clause).
Proof.
  intros HE Hg Hq Hc. unfold mini_solve.
  set (st1 := match cube with Some q => _ | None => st end).
  set (st2 := match clause with Some c => mini_extend st1 (clause_to_cnf c) | None => st1 end).
  assert (H1 : mini_good st1 cs /\ forall q, cube = Some q -> forall l, In l (cube_lits q) ->
     lit_legal l /\ (N.to_nat (lit_var l) < length (mini_table st1))%nat).
  { unfold st1. destruct cube as [q|].
    - destruct (Hq q eq_refl) as [Hq1 Hq2].
      destruct (mini_extend_good st (cube_to_cnf q) cs Hg) as (G1 & G2 & _); auto with api.
      split; auto. intros q' Eq l Hl. inv Eq. split.
      + unfold cube_legal in Hq2. rewrite Forall_forall in Hq2; auto.
      + pose proof (in_cube_max _ _ Hl). lia.
    - split; auto. intros; discriminate. }
  assert (H2 : mini_good st2 cs /\ (forall q, cube = Some q -> forall l, In l (cube_lits q) ->
     lit_legal l /\ (N.to_nat (lit_var l) < length (mini_table st2))%nat) /\
     (forall c, clause = Some c -> forall l, In l (clause_lits c) ->
     lit_legal l /\ (N.to_nat (lit_var l) < length (mini_table st2))%nat)).
  { unfold st2. destruct H1 as [H1 H1']. destruct clause as [c|].
    - destruct (Hc c eq_refl) as [Hq1 Hq2].
      destruct (mini_extend_good st1 (clause_to_cnf c) cs H1) as (G1 & G2 & (ext & G3)); auto with api.
      split; auto. split.
      + intros q Eq l Hl. destruct (H1' q Eq l Hl). split; auto. rewrite G3, app_length. lia.
      + intros c' Eq l Hl. inv Eq. split.
        * unfold clause_legal in Hq2. rewrite Forall_forall in Hq2; auto.
        * pose proof (in_clause_cnf_max _ _ Hq1 Hl). lia.
    - split; auto. split; auto. intros; discriminate. }
  clearbody st2. clear st1 H1. destruct H2 as (Hg2 & Hq2 & Hc2). destruct Hg2 as [Hk Hcov].
  assert (Ecube : match cube with Some c => translate (mini_table st2) (cube_iter c) | None => Ok [] end
     = Ok (cube_asm (mini_table st2) cube)).
  { destruct cube as [q|]; auto. unfold cube_iter. apply translate_ok. intros l Hl; eapply Hq2; eauto. }
  destruct clause as [c|].
  - unfold mini_handle_clause, clause_iter.
    rewrite translate_ok by (intros l Hl; eapply Hc2; eauto). cbn [bind].
    cbn [mini_add_raw mini_table mini_clauses mini_calls mini_next]. rewrite Ecube. cbn [bind].
    pose proof (knows_query_clause _ _ _ _ cube c Hk Hcov Hq2 (Hc2 c eq_refl)) as Hqu.
    match goal with |- context [mini_solve_raw b E ?s ?a] =>
      destruct (mini_solve_raw_ok b E s a (cs ++ temp_clauses cube (Some c)) (mini_next st2 + 1) HE Hqu) as (r & Er & Hr) end.
    rewrite Er. cbn [bind]. eexists _, _. split; [reflexivity|]. split; auto.
    unfold mini_good. simpl. apply good_temp; [split; auto|].
    intros z Hz. apply in_map_iff in Hz as (l & <- & Hl). destruct (Hc2 c eq_refl l Hl).
    apply (tr_bound (mini_table st2)); auto. apply (kn_table _ _ _ _ Hk).
  - unfold mini_solve_cube. rewrite Ecube. cbn [bind].
    pose proof (knows_query _ _ _ _ cube Hk Hcov Hq2) as Hqu.
    destruct (mini_solve_raw_ok b E st2 _ _ _ HE Hqu) as (r & Er & Hr).
    rewrite Er. eexists _, _. split; [reflexivity|]. split; auto. split; auto.
Qed.

Lemma mini_reaches b E order st cs : order_ok order -> minisat_ok E ->
  reaches (minisat_stateful b E order) st cs -> mini_good st cs.
Proof.
  intros Ho HE. induction 1 as [h|st cs f st' H IH Ha Hl Es|st cs cube clause r st' H IH Hq Hc Es].
  - split; [apply knows_init|]. intros c l [].
  - destruct (mini_add_good order st f cs Ho IH Ha Hl) as (st2 & E2 & G2).
    cbn [minisat_stateful ss_add_cnf] in Es. rewrite E2 in Es. inv Es. auto.
  - destruct (mini_solve_good b E st cube clause cs HE IH Hq Hc) as (r2 & st2 & E2 & G2 & _).
    cbn [minisat_stateful ss_solve] in Es. rewrite E2 in Es. inv Es. auto.
Qed.

Lemma minisat_stateful_correct b E order : order_ok order -> minisat_ok E ->
  stateful_correct (minisat_stateful b E order).
Proof.
  intros Ho HE st cs Hr. apply mini_reaches in Hr; auto. split.
  - intros f Ha Hl. destruct (mini_add_good order st f cs Ho Hr Ha Hl) as (st' & E' & _). eauto.
  - intros cube clause Hq Hc all.
    destruct (mini_solve_good b E st cube clause cs HE Hr Hq Hc) as (r & st' & E' & _ & H).
    destruct r as [|asg]; simpl in H.
    + right. eauto.
    + left. destruct H. eauto 6.
Qed.

(* ------------------------------------------------------------------------------ CaDiCaL *)

(** 1 + the largest variable + the number of temporary clauses + 1 must stay an [i32]. *)
Definition cad_budget : N := 2147483645.

Lemma i32_wrap_ok b z : -2147483648 <= z <= 2147483647 -> i32_wrap b z = Ok z.
Proof.
  intros H. unfold i32_wrap. replace ((-2147483648 <=? z) && (z <=? 2147483647)) with true by lia. auto.
Qed.

Lemma cad_push_ok b k next table : 1 <= next -> next + Z.of_nat k <= 2147483647 ->
  cad_push b k next table = Ok (push_new k next table).
Proof.
  revert next table; induction k as [|k IH]; intros next table H1 H2; auto.
  cbn [cad_push push_new]. unfold cad_new_lit, i32_add. rewrite i32_wrap_ok by lia. cbn [bind].
  apply IH; lia.
Qed.

Lemma cad_translate_ok b table next ls : table_ok table next -> next <= 2147483647 ->
  (forall l, In l ls -> (N.to_nat (lit_var l) < length table)%nat) ->
  cad_translate b table ls = Ok (map (tr table) ls).
Proof.
  intros Ht Hn H. unfold cad_translate. apply mapM_total. intros l Hl. unfold cad_literal.
  destruct (tr_bound table next l Ht (H l Hl)) as [_ Hb]. revert Hb.
  rewrite get_number_div, is_negated_odd. fold (lit_var l). fold (lit_neg l).
  unfold index, unwrap, tr, entry.
  rewrite (nth_error_nth' table 0) by auto. cbn [bind]. destruct (lit_neg l); auto.
  intros Hb. unfold i32_neg. apply i32_wrap_ok. lia.
Qed.

Definition cad_good (st : CadState) (cs : list Clause) (m k : N) : Prop :=
  good (cad_clauses st) (cad_table st) (cad_new st) cs /\
  cad_new st = Z.of_nat (length (cad_table st)) + Z.of_N k + 1 /\
  Z.of_nat (length (cad_table st)) <= Z.of_N m + 1.

Lemma cad_good_new st cs m k : cad_good st cs m k -> (m + k <= cad_budget)%N ->
  1 <= cad_new st <= 2147483647.
Proof. intros (_ & H1 & H2) H. unfold cad_budget in H. lia. Qed.

Lemma cad_extend_good b st f cs m k : cad_good st cs m k -> cnf_legal f -> api_cnf f ->
  (N.max m (cnf_max f) + k <= cad_budget)%N ->
  exists st1, cad_extend b st f = Ok st1 /\ cad_good st1 cs (N.max m (cnf_max f)) k /\
    (N.to_nat (cnf_max f) < length (cad_table st1))%nat /\
    exists ext, cad_table st1 = cad_table st ++ ext.
Proof.
  intros (H & Hn & Hm) Hl Ha HB. unfold cad_extend, cad_budget in *.
  rewrite cad_push_ok.
  2:{ lia. }
  2:{ unfold missing, lenN. lia. }
  destruct (good_extend _ _ _ _ f H Hl Ha) as (G1 & G2 & G3).
  rewrite push_new_spec in *. cbn [bind fst snd] in *.
  eexists. split; [reflexivity|]. cbn [cad_table cad_new cad_clauses].
  split; auto. split; auto. cbn [cad_table cad_new cad_clauses].
  rewrite app_length, map_length, seq_length. unfold missing, lenN. lia.
Qed.

Lemma cad_add_good b order st f cs m k : order_ok order -> cad_good st cs m k -> api_cnf f ->
  cnf_legal f -> (N.max m (max_var (cnf_clauses f)) + k <= cad_budget)%N ->
  exists st', cad_add_cnf b order st f = Ok st' /\
    cad_good st' (cs ++ cnf_clauses f) (N.max m (max_var (cnf_clauses f))) k.
Proof.
  intros Ho Hg Ha Hl HB. unfold cad_add_cnf. rewrite <- cnf_max_max_var in * by auto.
  destruct (cad_extend_good b st f cs m k Hg Hl Ha HB) as (st1 & E1 & Hg' & Hlen & _).
  rewrite E1. cbn [bind]. set (m' := N.max m (cnf_max f)) in *.
  assert (Hr : forall c l, In c (order (cnf_clauses f)) -> In l (clause_lits c) ->
     (N.to_nat (lit_var l) < length (cad_table st1))%nat).
  { intros c l Hc Hin. apply (Permutation_in _ (Ho _)) in Hc.
    pose proof (in_cnf_max f c l Ha Hc Hin). lia. }
  pose proof (order_legal order f Ho Hl) as Hol.
  assert (G : forall ds cs st2, cad_good st2 cs m' k -> cad_table st2 = cad_table st1 ->
     Forall clause_legal ds ->
     (forall c l, In c ds -> In l (clause_lits c) -> (N.to_nat (lit_var l) < length (cad_table st1))%nat) ->
     exists st', foldM (fun st c => cl <- cad_translate b (cad_table st) (clause_iter c) ;;
                     Ok (cad_add_raw st cl)) ds st2 = Ok st' /\ cad_good st' (cs ++ ds) m' k).
  { induction ds as [|d ds IH]; intros cs2 st2 Hg2 Et Hl2 Hr2.
    - exists st2. rewrite app_nil_r. auto.
    - inv Hl2. cbn [foldM]. unfold clause_iter at 1.
      pose proof (cad_good_new _ _ _ _ Hg2 HB) as Hnx.
      rewrite (cad_translate_ok b _ (cad_new st2)).
      2:{ apply (kn_table _ _ _ _ (proj1 (proj1 Hg2))). }
      2:{ lia. }
      2:{ intros l Hin. rewrite Et. eapply Hr2; eauto; left; auto. }
      cbn [bind]. destruct (IH (cs2 ++ [d]) (cad_add_raw st2 (map (tr (cad_table st2)) (clause_lits d))))
        as (st' & E & Hst'); auto.
      + destruct Hg2 as (Hg2 & Hg3). split; auto. simpl. apply good_add; auto.
        rewrite Et. intros l Hin; eapply Hr2; eauto; left; auto.
      + intros; eapply Hr2; eauto; right; auto.
      + exists st'. rewrite <- app_assoc in Hst'. auto. }
  destruct (G (order (cnf_clauses f)) cs st1) as (st' & E & Hst'); auto.
  exists st'. split; auto. destruct Hst' as [Hst' Hr']. split; auto. eapply good_perm; eauto.
Qed.

Lemma cad_solve_raw_ok b E st asm all next : cadical_ok E ->
  query (cad_clauses st) asm (cad_table st) next all -> next <= 2147483648 ->
  exists r, cad_solve_raw b E st asm =
      Ok (r, mkCadState (cad_clauses st) (S (cad_calls st)) (cad_table st) (cad_new st)) /\
    right_answer (cadical_values E) r all.
Proof.
  intros HE Hq Hn. unfold cad_solve_raw.
  assert (Hi : ints_i32 (asm :: cad_clauses st)).
  { intros c z Hc Hz. destruct (q_raw _ _ _ _ _ Hq c z Hc Hz). lia. }
  specialize (HE (cad_calls st) _ _ Hi).
  destruct (E _ _ _) as [value| |] eqn:EE.
  - destruct (decode b (cad_table st) next value (cad_model_to_dimacs value (cad_table st)))
      as (asg & Ea & Hd & _).
    + apply (q_table _ _ _ _ _ Hq).
    + intros z. unfold cad_model_to_dimacs. rewrite in_flat_map. split.
      * intros ([j t] & Hin & Hz). destruct (value t) as [x|] eqn:Ex; [|destruct Hz].
        destruct Hz as [<-|[]]. exists j, t, x. auto.
      * intros (j & t & x & Hin & Ex & ->). exists (j, t). rewrite Ex. split; auto. left; auto.
    + rewrite Ea. cbn [bind]. eexists; split; [reflexivity|]. simpl. split.
      * eapply query_sat; eauto.
      * intros Hv. eapply query_defined; eauto. 
  - eexists; split; [reflexivity|]. simpl. eapply q_complete; eauto.
  - contradiction.
Qed.

Lemma max_var_app cs ds : max_var (cs ++ ds) = N.max (max_var cs) (max_var ds).
Proof. induction cs as [|c cs IH]; cbn [app]; [|rewrite !max_var_cons, IH; lia].
  change (max_var []) with 0%N. lia. Qed.

Lemma temp_max cube clause : (forall c, clause = Some c -> api_clause c) ->
  max_var (temp_clauses cube clause) =
  N.max (match cube with Some q => cnf_max (cube_to_cnf q) | None => 0%N end)
        (match clause with Some c => cnf_max (clause_to_cnf c) | None => 0%N end).
Proof.
  intros Hc. unfold temp_clauses. rewrite max_var_app. f_equal.
  - destruct cube as [q|]; auto. rewrite cnf_max_max_var by auto with api.
    apply max_var_same. intros c. rewrite in_map_iff, in_cube_to_cnf. split.
    + intros (l & <- & Hl); eauto.
    + intros (l & Hl & ->); eauto.
  - destruct clause as [c|]; auto. rewrite cnf_max_max_var by auto with api.
    apply max_var_same. intros d. split.
    + intros [<-|[]]. apply in_add_clause; auto.
    + intros H. apply in_add_clause in H as [[]|H]; left; auto.
Qed.

Lemma cad_solve_good b E st cube clause cs m k : cadical_ok E -> cad_good st cs m k ->
  (forall q, cube = Some q -> api_cube q /\ cube_legal q) ->
  (forall c, clause = Some c -> api_clause c /\ clause_legal c) ->
  let m' := N.max m (max_var (temp_clauses cube clause)) in
  let k' := match clause with Some _ => (k + 1)%N | None => k end in
  (m' + k' <= cad_budget)%N ->
  exists r st', cad_solve b E st cube clause = Ok (r, st') /\ cad_good st' cs m' k' /\
    right_answer (cadical_values E) r (cs ++ temp_clauses cube clause).
Proof.
  intros HE Hg Hq Hc m' k' HB. unfold cad_solve.
  assert (Hkk : (k <= k')%N) by (unfold k'; destruct clause; lia).
  pose proof (temp_max cube clause (fun c Ec => proj1 (Hc c Ec))) as Em.
  set (m1 := N.max m (match cube with Some q => cnf_max (cube_to_cnf q) | None => 0%N end)).
  assert (Em' : m' = N.max m1 (match clause with Some c => cnf_max (clause_to_cnf c) | None => 0%N end)).
  { unfold m', m1. rewrite Em. lia. }
  assert (H1 : exists st1,
     match cube with Some q => cad_extend b st (cube_to_cnf q) | None => Ok st end = Ok st1 /\
     cad_good st1 cs m1 k /\ forall q, cube = Some q -> forall l, In l (cube_lits q) ->
     lit_legal l /\ (N.to_nat (lit_var l) < length (cad_table st1))%nat).
  { destruct cube as [q|].
    - destruct (Hq q eq_refl) as [Hq1 Hq2].
      destruct (cad_extend_good b st (cube_to_cnf q) cs m k Hg) as (st1 & E1 & G1 & G2 & _); auto with api.
      { fold m1. lia. }
      exists st1. split; auto. split; auto. intros q' Eq l Hl. inv Eq. split.
      + unfold cube_legal in Hq2. rewrite Forall_forall in Hq2; auto.
      + pose proof (in_cube_max _ _ Hl). lia.
    - exists st. split; auto. split; [|intros; discriminate].
      replace m1 with m by (unfold m1; lia). auto. }
  destruct H1 as (st1 & E1 & H1 & H1'). rewrite E1. cbn [bind].
  assert (H2 : exists st2,
     match clause with Some c => cad_extend b st1 (clause_to_cnf c) | None => Ok st1 end = Ok st2 /\
     cad_good st2 cs m' k /\ (forall q, cube = Some q -> forall l, In l (cube_lits q) ->
     lit_legal l /\ (N.to_nat (lit_var l) < length (cad_table st2))%nat) /\
     (forall c, clause = Some c -> forall l, In l (clause_lits c) ->
     lit_legal l /\ (N.to_nat (lit_var l) < length (cad_table st2))%nat)).
  { rewrite Em'. destruct clause as [c|].
    - destruct (Hc c eq_refl) as [Hq1 Hq2].
      destruct (cad_extend_good b st1 (clause_to_cnf c) cs m1 k H1) as (st2 & E2 & G1 & G2 & (ext & G3)); auto with api.
      { lia. }
      exists st2. split; auto. split; auto. split.
      + intros q Eq l Hl. destruct (H1' q Eq l Hl). split; auto. rewrite G3, app_length. lia.
      + intros c' Eq l Hl. inv Eq. split.
        * unfold clause_legal in Hq2. rewrite Forall_forall in Hq2; auto.
        * pose proof (in_clause_cnf_max _ _ Hq1 Hl). lia.
    - exists st1. split; auto. split; [|split; auto; intros; discriminate].
      replace (N.max m1 0) with m1 by lia. auto. }
  destruct H2 as (st2 & E2 & Hg2 & Hq2 & Hc2). rewrite E2. cbn [bind].
  clear st1 E1 H1 H1' E2. clearbody m1. 
  assert (Hnx : 1 <= cad_new st2 <= 2147483647) by (apply (cad_good_new _ _ _ _ Hg2); lia).
  destruct Hg2 as [[Hk Hcov] [Hnew Hlen]].
  assert (Ecube : match cube with Some c => cad_translate b (cad_table st2) (cube_iter c) | None => Ok [] end
     = Ok (cube_asm (cad_table st2) cube)).
  { destruct cube as [q|]; auto. unfold cube_iter.
    apply (cad_translate_ok b _ (cad_new st2)); [apply (kn_table _ _ _ _ Hk)|lia|].
    intros l Hl; eapply Hq2; eauto. }
  destruct clause as [c|]; unfold k' in *.
  - unfold cad_handle_clause, clause_iter.
    rewrite (cad_translate_ok b _ (cad_new st2));
      [|apply (kn_table _ _ _ _ Hk)|lia|intros l Hl; eapply Hc2; eauto].
    cbn [bind]. unfold cad_new_lit, i32_add, i32_neg.
    unfold cad_budget in HB.
    rewrite i32_wrap_ok by lia. cbn [bind]. rewrite i32_wrap_ok by lia. cbn [bind].
    cbn [cad_add_raw cad_table cad_clauses cad_calls cad_new]. rewrite Ecube. cbn [bind].
    pose proof (knows_query_clause _ _ _ _ cube c Hk Hcov Hq2 (Hc2 c eq_refl)) as Hqu.
    match goal with |- context [cad_solve_raw b E ?s ?a] =>
      destruct (cad_solve_raw_ok b E s a (cs ++ temp_clauses cube (Some c)) (cad_new st2 + 1) HE Hqu) as (r & Er & Hr) end; [lia|].
    rewrite Er. cbn [bind]. eexists _, _. split; [reflexivity|]. split; auto.
    split; [|simpl; lia]. simpl. apply good_temp; [split; auto|].
    intros z Hz. apply in_map_iff in Hz as (l & <- & Hl). destruct (Hc2 c eq_refl l Hl).
    apply (tr_bound (cad_table st2)); auto. apply (kn_table _ _ _ _ Hk).
  - unfold cad_solve_cube. rewrite Ecube. cbn [bind].
    pose proof (knows_query _ _ _ _ cube Hk Hcov Hq2) as Hqu.
    destruct (cad_solve_raw_ok b E st2 _ _ _ HE Hqu) as (r & Er & Hr); [lia|].
    rewrite Er. eexists _, _. split; [reflexivity|]. split; auto. split; [split; auto|simpl; lia].
Qed.

Lemma cad_reaches b E order st cs m k : order_ok order -> cadical_ok E ->
  reaches_using (cadical_stateful b E order) st cs m k -> (m + k <= cad_budget)%N ->
  cad_good st cs m k.
Proof.
  intros Ho HE. induction 1 as [h|st cs m k f st' H IH Ha Hl Es|st cs m k cube clause r st' H IH Hq Hc Es];
    intros HB.
  - split; [split; [apply knows_init|]; intros c l []|]. simpl. lia.
  - destruct (cad_add_good b order st f cs m k Ho) as (st2 & E2 & G2); auto; [apply IH; lia|].
    cbn [cadical_stateful ss_add_cnf] in Es. rewrite E2 in Es. inv Es. auto.
  - destruct (cad_solve_good b E st cube clause cs m k HE) as (r2 & st2 & E2 & G2 & _); auto.
    + apply IH. destruct clause; lia.
    + cbn [cadical_stateful ss_solve] in Es. rewrite E2 in Es. inv Es. auto.
Qed.

Lemma cadical_stateful_within b E order : order_ok order -> cadical_ok E ->
  stateful_within cad_budget (cadical_values E) (cadical_stateful b E order).
Proof.
  intros Ho HE st cs m k Hr. split.
  - intros f Ha Hl HB. apply cad_reaches in Hr; auto; [|lia].
    destruct (cad_add_good b order st f cs m k Ho Hr Ha Hl HB) as (st' & E' & _). eauto.
  - intros cube clause Hq Hc HB all. apply cad_reaches in Hr; auto; [|destruct clause; lia].
    destruct (cad_solve_good b E st cube clause cs m k HE Hr Hq Hc HB) as (r & st' & E' & _ & H).
    destruct r as [|asg]; simpl in H.
    + right. eauto.
    + left. destruct H. eauto 6.
Qed.

(** Outside the budget a debug build panics: a formula with the variable 2^31 - 2, ... *)
Lemma cad_push_panics k next table : next <= 2147483647 -> next + Z.of_nat k > 2147483647 ->
  cad_push Debug k next table = Panic.
Proof.
  revert next table; induction k as [|k IH]; intros next table H1 H2; [lia|].
  cbn [cad_push]. unfold cad_new_lit, i32_add, i32_wrap.
  destruct ((-2147483648 <=? next + 1) && (next + 1 <=? 2147483647)) eqn:E; cbn [bind]; auto.
  apply IH; lia.
Qed.

Lemma cadical_stateful_large E order h f : (cnf_max f >= 2147483646)%N ->
  ss_add_cnf (cadical_stateful Debug E order) (ss_new (cadical_stateful Debug E order) h) f = Panic.
Proof.
  intros H. cbn [cadical_stateful ss_add_cnf ss_new]. unfold cad_add_cnf, cad_extend.
  rewrite cad_push_panics; auto; simpl; unfold missing, lenN; simpl; lia.
Qed.

(** ... or 2^31 - 3 temporary clauses over one variable. *)
Lemma cadical_stateful_many E order : order_ok order -> cadical_ok E ->
  exists st, reaches_using (cadical_stateful Debug E order) st [] 1 2147483644 /\
    ss_solve (cadical_stateful Debug E order) st None (Some (clause_new [2%N])) = Panic.
Proof.
  intros Ho HE. set (SS := cadical_stateful Debug E order).
  assert (Hc : forall c, Some (clause_new [2%N]) = Some c -> api_clause c /\ clause_legal c).
  { intros c Ec. inv Ec. split; [auto with api|]. constructor; [|constructor].
    unfold lit_legal. lia. }
  assert (Hq : forall q, @None Cube = Some q -> api_cube q /\ cube_legal q) by (intros; discriminate).
  assert (G : forall n : nat, Z.of_nat n + 1 <= 2147483644 ->
     exists st, reaches_using SS st [] 1 (N.of_nat n + 1)).
  { induction n as [|n IH]; intros Hn.
    - destruct (cad_solve_good Debug E (ss_new SS HintNone) None (Some (clause_new [2%N])) [] 0 0 HE)
        as (r & st & E1 & _); [|exact Hq|exact Hc|vm_compute; discriminate|].
      + split; [split; [apply knows_init|]; intros c l []|]. simpl. lia.
      + exists st. apply (using_solve SS _ _ 0 0 _ _ _ _ (using_new SS HintNone) Hq Hc E1).
    - destruct IH as (st & Hst); [lia|].
      destruct (cad_solve_good Debug E st None (Some (clause_new [2%N])) [] 1 (N.of_nat n + 1) HE)
        as (r & st' & E1 & _); [|exact Hq|exact Hc| |].
      + apply (cad_reaches _ _ _ _ _ _ _ Ho HE Hst). unfold cad_budget. lia.
      + cbv beta iota zeta.
        change (max_var (temp_clauses None (Some (clause_new [2%N])))) with 1%N. unfold cad_budget. lia.
      + exists st'. pose proof (using_solve SS _ _ _ _ _ _ _ _ Hst Hq Hc E1) as X.
        cbv iota beta in X.
        change (N.max 1 (max_var (temp_clauses None (Some (clause_new [2%N]))))) with 1%N in X.
        replace (N.of_nat (S n) + 1)%N with (N.of_nat n + 1 + 1)%N by lia. exact X. }
  remember (N.to_nat 2147483643) as big eqn:Ebig.
  destruct (G big) as (st & Hst); [lia|].
  replace (N.of_nat big + 1)%N with 2147483644%N in Hst by lia. clear Ebig.
  exists st. split; auto.
  pose proof (cad_reaches _ _ _ _ _ _ _ Ho HE Hst) as Hg. specialize (Hg ltac:(unfold cad_budget; lia)).
  cbn [SS cadical_stateful ss_solve]. unfold cad_solve. cbn [bind].
  destruct (Hc _ eq_refl) as [Hc1 Hc2].
  destruct (cad_extend_good Debug st (clause_to_cnf (clause_new [2%N])) [] 1 2147483644 Hg)
    as (st1 & E1 & Hg1 & Hlen & _); auto with api.
  { change (cnf_max (clause_to_cnf (clause_new [2%N]))) with 1%N. unfold cad_budget. lia. }
  rewrite E1. cbn [bind]. change (cnf_max (clause_to_cnf (clause_new [2%N]))) with 1%N in *.
  pose proof (cad_good_new _ _ _ _ Hg1 ltac:(unfold cad_budget; lia)) as Hnx.
  destruct Hg1 as ([Hk _] & Hnew & Hl1). unfold cad_handle_clause, clause_iter.
  rewrite (cad_translate_ok Debug _ (cad_new st1)); [|apply (kn_table _ _ _ _ Hk)|lia|].
  2:{ intros l [<-|[]]. exact Hlen. }
  cbn [bind]. unfold cad_new_lit, i32_add, i32_wrap.
  replace (cad_new st1 + 1 <=? 2147483647) with false by lia.
  rewrite andb_false_r. reflexivity.
Qed.
