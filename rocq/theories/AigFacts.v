(** Facts about circuits, their evaluation, and graphs that represent them. *)
From Verif Require Import Base Aig Spec SpecAig Tac.
Open Scope N_scope.

Lemma nth_error_lt {A} (l : list A) i : (i < length l)%nat -> exists x, nth_error l i = Some x.
Proof.
  intros H. destruct (nth_error l i) eqn:E; eauto. apply nth_error_None in E; lia.
Qed.

Lemma nth_error_some_lt {A} (l : list A) i x : nth_error l i = Some x -> (i < length l)%nat.
Proof. intros H. apply nth_error_Some. congruence. Qed.

(* ------------------------------------------------------------- variable kinds *)

Lemma latch_range c v n r : latch c v n r -> c_inputs c < v <= c_inputs c + lenN (c_latches c).
Proof.
  intros (j & Hj & ->). apply nth_error_some_lt in Hj. unfold latch_var, lenN. lia.
Qed.

Lemma gate_range c v r0 r1 : gate c v r0 r1 -> c_inputs c + lenN (c_latches c) < v <= c_max c.
Proof.
  intros (j & Hj & ->). apply nth_error_some_lt in Hj. unfold gate_var, c_max, lenN. lia.
Qed.

Lemma latch_fun c v n r n' r' : latch c v n r -> latch c v n' r' -> n = n' /\ r = r'.
Proof.
  intros (j & Hj & E) (j' & Hj' & E'). assert (j = j') by (unfold latch_var in *; lia).
  subst j'. rewrite Hj in Hj'. inv Hj'. auto.
Qed.

Lemma gate_fun c v n r n' r' : gate c v n r -> gate c v n' r' -> n = n' /\ r = r'.
Proof.
  intros (j & Hj & E) (j' & Hj' & E'). assert (j = j') by (unfold gate_var in *; lia).
  subst j'. rewrite Hj in Hj'. inv Hj'. auto.
Qed.

Lemma is_latch_iff c v : is_latch c v <-> c_inputs c < v <= c_inputs c + lenN (c_latches c).
Proof.
  split.
  - intros (n & r & H). eapply latch_range; eauto.
  - intros H. destruct (nth_error_lt (c_latches c) (N.to_nat (v - c_inputs c - 1))) as ((n, r) & E).
    { unfold lenN in H. lia. }
    exists n, r. eexists; split; [exact E|]. unfold latch_var. lia.
Qed.

Lemma is_gate_iff c v : is_gate c v <-> c_inputs c + lenN (c_latches c) < v <= c_max c.
Proof.
  split.
  - intros (n & r & H). eapply gate_range; eauto.
  - intros H.
    destruct (nth_error_lt (c_ands c) (N.to_nat (v - c_inputs c - lenN (c_latches c) - 1)))
      as ((n, r) & E).
    { unfold c_max, lenN in *. lia. }
    exists n, r. eexists; split; [exact E|]. unfold gate_var. lia.
Qed.

Lemma classify c v : v <= c_max c -> v = 0 \/ is_input c v \/ is_latch c v \/ is_gate c v.
Proof. intros H. rewrite is_latch_iff, is_gate_iff. unfold is_input. lia. Qed.

Lemma latch_le_max c v : is_latch c v -> v <= c_max c.
Proof. rewrite is_latch_iff. unfold c_max. lia. Qed.
Lemma input_le_max c v : is_input c v -> v <= c_max c.
Proof. unfold is_input, c_max. lia. Qed.
Lemma gate_le_max c v : is_gate c v -> v <= c_max c.
Proof. rewrite is_gate_iff. lia. Qed.

Lemma gate_operands c v r0 r1 : circuit_wf c -> gate c v r0 r1 ->
  lit_var r0 < v /\ lit_var r1 < v.
Proof. intros (_ & _ & _ & _ & H) G. apply H in G. unfold lit_var. lia. Qed.

Lemma latch_dec c v : {nr : N * N | latch c v (fst nr) (snd nr)} + {~ is_latch c v}.
Proof.
  destruct ((c_inputs c <? v) && (v <=? c_inputs c + lenN (c_latches c))) eqn:E.
  - left. destruct (nth_error (c_latches c) (N.to_nat (v - c_inputs c - 1))) as [(n, r)|] eqn:E'.
    + exists (n, r). eexists; split; [exact E'|]. unfold latch_var. lia.
    + exfalso. apply nth_error_None in E'. unfold lenN in *. lia.
  - right. rewrite is_latch_iff. lia.
Defined.

(* ------------------------------------------------------------------ evaluation *)

(** Evaluate a variable: inputs and latches (and variables outside) come from [src]. *)
Fixpoint evf (fuel : nat) (c : circuit) (src : valuation) (v : N) : bool :=
  match fuel with
  | O => false
  | S f =>
      if v =? 0 then false
      else if v <=? c_inputs c + lenN (c_latches c) then src v
      else match nth_error (c_ands c) (N.to_nat (v - c_inputs c - lenN (c_latches c) - 1)) with
           | Some (r0, r1) =>
               lit_value (evf f c src) r0 && lit_value (evf f c src) r1
           | None => src v
           end
  end.
Definition ev (c : circuit) (src : valuation) : valuation :=
  fun v => evf (S (N.to_nat v)) c src v.

Lemma evf_fuel c src : circuit_wf c -> forall f1 f2 v,
  (N.to_nat v < f1)%nat -> (N.to_nat v < f2)%nat -> evf f1 c src v = evf f2 c src v.
Proof.
  intros Hwf. induction f1 as [|f1 IH]; intros f2 v H1 H2; [lia|].
  destruct f2 as [|f2]; [lia|]. cbn [evf].
  destruct (v =? 0) eqn:E0; auto.
  destruct (v <=? _) eqn:E1; auto.
  destruct (nth_error _ _) as [(r0, r1)|] eqn:E; auto.
  assert (G : gate c v r0 r1). { eexists; split; [exact E|]. unfold gate_var. lia. }
  apply gate_operands in G; auto. unfold lit_value.
  rewrite (IH f2 (lit_var r0)) by lia. rewrite (IH f2 (lit_var r1)) by lia. reflexivity.
Qed.

Lemma ev_0 c src : ev c src 0 = false.
Proof. reflexivity. Qed.

Lemma ev_src c src v : (is_input c v \/ is_latch c v \/ c_max c < v) -> ev c src v = src v.
Proof.
  intros H. rewrite is_latch_iff in H. unfold is_input in H. unfold ev. cbn [evf].
  destruct (v =? 0) eqn:E0; [lia|].
  destruct (v <=? _) eqn:E1; auto.
  destruct (nth_error _ _) as [(r0, r1)|] eqn:E; auto.
  apply nth_error_some_lt in E. unfold c_max, lenN in *. lia.
Qed.

Lemma ev_gate c src v r0 r1 : circuit_wf c -> gate c v r0 r1 ->
  ev c src v = lit_value (ev c src) r0 && lit_value (ev c src) r1.
Proof.
  intros Hwf G. pose proof (gate_range _ _ _ _ G) as R.
  pose proof (gate_operands _ _ _ _ Hwf G) as O.
  unfold ev at 1. cbn [evf].
  destruct (v =? 0) eqn:E0; [lia|].
  destruct (v <=? _) eqn:E1; [lia|].
  destruct G as (j & Hj & ->).
  replace (N.to_nat _) with j by (unfold gate_var; lia).
  rewrite Hj. unfold lit_value.
  rewrite (evf_fuel c src Hwf _ (S (N.to_nat (lit_var r0))) (lit_var r0)) by lia.
  rewrite (evf_fuel c src Hwf _ (S (N.to_nat (lit_var r1))) (lit_var r1)) by lia.
  reflexivity.
Qed.

Lemma ev_wires_ok c src : circuit_wf c -> wires_ok c (ev c src).
Proof. intros H. split; [reflexivity|]. intros. apply ev_gate; auto. Qed.

Lemma wires_unique c w src : circuit_wf c -> wires_ok c w ->
  (forall v, is_input c v \/ is_latch c v -> w v = src v) ->
  forall v, v <= c_max c -> w v = ev c src v.
Proof.
  intros Hwf (H0 & Hg) Hs.
  apply (well_founded_induction N.lt_wf_0 (fun v => v <= c_max c -> w v = ev c src v)).
  intros v IH Hv. destruct (classify c v Hv) as [->|[Hi|[Hl|Hgt]]].
  - rewrite H0. reflexivity.
  - rewrite ev_src by auto. auto.
  - rewrite ev_src by auto. auto.
  - destruct Hgt as (r0 & r1 & G). rewrite (Hg _ _ _ G), (ev_gate _ _ _ _ _ Hwf G).
    pose proof (gate_operands _ _ _ _ Hwf G). unfold lit_value.
    rewrite (IH (lit_var r0)) by lia. rewrite (IH (lit_var r1)) by lia. reflexivity.
Qed.

Lemma ev_ext c src src' : circuit_wf c ->
  (forall v, is_input c v \/ is_latch c v -> src v = src' v) ->
  forall v, v <= c_max c -> ev c src v = ev c src' v.
Proof.
  intros Hwf H v Hv. apply (wires_unique c (ev c src) src' Hwf); auto.
  - apply ev_wires_ok; auto.
  - intros u Hu. rewrite ev_src by tauto. auto.
Qed.

Lemma lit_value_ext w w' l : w (lit_var l) = w' (lit_var l) -> lit_value w l = lit_value w' l.
Proof. unfold lit_value. intros ->; auto. Qed.

Lemma lit_value_true w l : lit_value w l = true <-> lit_true w l.
Proof. reflexivity. Qed.

(* --------------------------------------------------------------- representation *)

Lemma numbers_length f n : length (numbers f n) = N.to_nat n.
Proof. unfold numbers. rewrite map_length, seq_length. reflexivity. Qed.

Lemma in_numbers f n x : In x (numbers f n) <-> f <= x < f + n.
Proof.
  unfold numbers. rewrite in_map_iff. split.
  - intros (i & <- & H). apply in_seq in H. lia.
  - intros H. exists (N.to_nat (x - f)). split; [lia|]. apply in_seq. lia.
Qed.

Lemma numbers_nth f n i : (i < N.to_nat n)%nat -> nth_error (numbers f n) i = Some (f + N.of_nat i).
Proof.
  intros H. unfold numbers. rewrite nth_error_map.
  rewrite (nth_error_nth' _ 0%nat) by (rewrite seq_length; lia).
  rewrite seq_nth by lia. reflexivity.
Qed.

Lemma numbers_succ f n : numbers f (N.succ n) = numbers f n ++ [f + n].
Proof.
  unfold numbers. rewrite N2Nat.inj_succ, seq_S, map_app. simpl. f_equal. f_equal. lia.
Qed.

Lemma node_at a c v : represents a c -> v <= c_max c ->
  exists n, index (nodes a) v = Ok n /\ node_is c v n.
Proof.
  intros H Hv. unfold represents in H.
  decompose [and] H; clear H.
  destruct (nth_error_lt (nodes a) (N.to_nat v)) as (n & E). { unfold lenN in *. lia. }
  exists n. split. { apply index_ok; auto. }
  match goal with F : forall i n, nth_error (nodes a) i = Some n -> _ |- _ => apply F in E end.
  rewrite N2Nat.id in E. auto.
Qed.

Lemma node_out a c v : represents a c -> c_max c < v -> index (nodes a) v = Panic.
Proof.
  intros H Hv. unfold represents in H.
  decompose [and] H; clear H. unfold index.
  rewrite (proj2 (nth_error_None _ _)); auto. unfold lenN in *. lia.
Qed.

Lemma lit_lt_usize c l : circuit_fits c -> lit_in_range c l -> l < 18446744073709551615.
Proof. unfold circuit_fits, lit_in_range, lit_var. intros. lia. Qed.

Lemma node_is_latch c v n nx r : node_is c v n -> latch c v nx r ->
  node_lit n = 2 * v /\ node_type n = Latch /\ node_latch_input n = nx /\ node_latch_reset n = r.
Proof.
  intros (El & [(-> & _)|[(Hi & _)|[(nx' & r' & L' & Ht & E1 & E2)|(r0 & r1 & G & _)]]]) L;
    pose proof (latch_range _ _ _ _ L) as R.
  - lia.
  - unfold is_input in Hi. lia.
  - destruct (latch_fun _ _ _ _ _ _ L L'). subst. auto.
  - apply gate_range in G. lia.
Qed.

Lemma node_is_gate c v n r0 r1 : node_is c v n -> gate c v r0 r1 ->
  node_lit n = 2 * v /\ node_type n = And /\ node_and_input0 n = r0 /\ node_and_input1 n = r1.
Proof.
  intros (El & [(-> & _)|[(Hi & _)|[(nx' & r' & L' & _)|(r0' & r1' & G' & Ht & E1 & E2)]]]) G;
    pose proof (gate_range _ _ _ _ G) as R.
  - lia.
  - unfold is_input in Hi. lia.
  - apply latch_range in L'. lia.
  - destruct (gate_fun _ _ _ _ _ _ G G'). subst. auto.
Qed.

Lemma node_is_input c v n : node_is c v n -> is_input c v ->
  node_lit n = 2 * v /\ node_type n = Input.
Proof.
  intros (El & [(-> & _)|[(Hi & Ht)|[(nx' & r' & L' & _)|(r0' & r1' & G' & _)]]]) G;
    unfold is_input in *.
  - lia.
  - auto.
  - apply latch_range in L'. lia.
  - apply gate_range in G'. lia.
Qed.

Lemma node_is_zero c n : node_is c 0 n -> node_lit n = 0 /\ node_type n = ConstantZero.
Proof.
  intros (El & [(_ & Ht)|[(Hi & Ht)|[(nx' & r' & L' & _)|(r0' & r1' & G' & _)]]]).
  - auto.
  - unfold is_input in *; lia.
  - apply latch_range in L'. lia.
  - apply gate_range in G'. lia.
Qed.

Lemma latch_wf c v nx r : circuit_wf c -> circuit_fits c -> latch c v nx r ->
  nx < 18446744073709551615 /\ r < 18446744073709551615.
Proof.
  intros (Hl & _) Hf L. pose proof (latch_le_max c v (ex_intro _ _ (ex_intro _ _ L))).
  destruct (Hl _ _ _ L) as (H1 & H2). apply (lit_lt_usize _ _ Hf) in H1.
  split; auto. unfold circuit_fits in Hf. lia.
Qed.

Lemma gate_wf c v r0 r1 : circuit_wf c -> circuit_fits c -> gate c v r0 r1 ->
  r0 < 18446744073709551615 /\ r1 < 18446744073709551615.
Proof.
  intros (_ & _ & _ & _ & Hg) Hf G. pose proof (gate_range _ _ _ _ G).
  apply Hg in G. unfold circuit_fits in Hf. lia.
Qed.

Lemma latch_node a c v nx r : represents a c -> circuit_wf c -> circuit_fits c ->
  latch c v nx r ->
  exists n, index (nodes a) v = Ok n /\ node_lit n = 2 * v /\ node_type n = Latch /\
    get_latch_input n = Ok nx /\ get_latch_reset n = Ok r.
Proof.
  intros Hr Hwf Hf L.
  destruct (node_at a c v Hr) as (n & E & Hn). { apply latch_le_max. exists nx, r; auto. }
  destruct (node_is_latch _ _ _ _ _ Hn L) as (E1 & E2 & E3 & E4).
  destruct (latch_wf _ _ _ _ Hwf Hf L).
  exists n. unfold get_latch_input, get_latch_reset. rewrite E2, E3, E4. cbn [node_type_eqb assert_ bind].
  destruct (nx =? usize_max) eqn:X1; [unfold usize_max in *; lia|].
  destruct (r =? usize_max) eqn:X2; [unfold usize_max in *; lia|]. auto.
Qed.

Lemma gate_node a c v r0 r1 : represents a c -> circuit_wf c -> circuit_fits c ->
  gate c v r0 r1 ->
  exists n, index (nodes a) v = Ok n /\ node_lit n = 2 * v /\ node_type n = And /\
    get_and_rhs0 n = Ok r0 /\ get_and_rhs1 n = Ok r1.
Proof.
  intros Hr Hwf Hf G.
  destruct (node_at a c v Hr) as (n & E & Hn). { apply gate_le_max. exists r0, r1; auto. }
  destruct (node_is_gate _ _ _ _ _ Hn G) as (E1 & E2 & E3 & E4).
  destruct (gate_wf _ _ _ _ Hwf Hf G).
  exists n. unfold get_and_rhs0, get_and_rhs1. rewrite E2, E3, E4. cbn [node_type_eqb assert_ bind].
  destruct (r0 =? usize_max) eqn:X1; [unfold usize_max in *; lia|].
  destruct (r1 =? usize_max) eqn:X2; [unfold usize_max in *; lia|]. auto.
Qed.

(* ---------------------------------------------------------------------- getters *)

Lemma get_input_information_ok a c : represents a c ->
  get_input_information a = Ok (map (fun v => 2 * v) (numbers 1 (c_inputs c))).
Proof.
  intros Hr. unfold get_input_information.
  replace (inputs a) with (numbers 1 (c_inputs c)) by (unfold represents in Hr; symmetry; tauto).
  apply mapM_total. intros v Hv. apply in_numbers in Hv.
  destruct (node_at a c v Hr) as (n & E & Hn). { unfold c_max. lia. }
  rewrite E. simpl. f_equal. apply Hn.
Qed.

(** Latches as (literal, next, reset). *)
Definition latch_infos (c : circuit) : list (N * N * N) :=
  map (fun e => (2 * latch_var c (fst e), fst (snd e), snd (snd e)))
    (combine (seq 0 (length (c_latches c))) (c_latches c)).

Lemma nth_error_combine {A B} (l1 : list A) (l2 : list B) i x y :
  nth_error l1 i = Some x -> nth_error l2 i = Some y ->
  nth_error (combine l1 l2) i = Some (x, y).
Proof.
  revert l2 i; induction l1 as [|a l1 IH]; intros [|b l2] [|i]; simpl; try discriminate.
  - intros; congruence.
  - apply IH.
Qed.

Lemma nth_error_seq s n i : (i < n)%nat -> nth_error (seq s n) i = Some (s + i)%nat.
Proof.
  intros H. rewrite (nth_error_nth' _ 0%nat) by (rewrite seq_length; lia).
  rewrite seq_nth by lia. reflexivity.
Qed.

Lemma latch_infos_nth c j n r : nth_error (c_latches c) j = Some (n, r) ->
  nth_error (latch_infos c) j = Some (2 * latch_var c j, n, r).
Proof.
  intros H. unfold latch_infos. rewrite nth_error_map.
  rewrite (nth_error_combine _ _ j j (n, r)); auto.
  rewrite nth_error_seq; auto. eapply nth_error_some_lt; eauto.
Qed.

Lemma latch_infos_length c : length (latch_infos c) = length (c_latches c).
Proof. unfold latch_infos. rewrite map_length, combine_length, seq_length. lia. Qed.

Lemma in_latch_infos c x : In x (latch_infos c) <->
  exists v n r, latch c v n r /\ x = (2 * v, n, r).
Proof.
  split.
  - intros H. apply In_nth_error in H. destruct H as (j & H).
    pose proof (nth_error_some_lt _ _ _ H) as Hl. rewrite latch_infos_length in Hl.
    destruct (nth_error_lt _ _ Hl) as ((n, r) & E).
    rewrite (latch_infos_nth _ _ _ _ E) in H. inv H.
    exists (latch_var c j), n, r. split; auto. exists j; auto.
  - intros (v & n & r & (j & E & ->) & ->). eapply nth_error_In. apply latch_infos_nth; eauto.
Qed.

Lemma mapM_nth {A B} (f : A -> res B) l r : length l = length r ->
  (forall i x y, nth_error l i = Some x -> nth_error r i = Some y -> f x = Ok y) ->
  mapM f l = Ok r.
Proof.
  revert r; induction l as [|x l IH]; intros [|y r]; simpl; try discriminate; auto.
  intros Hl H. rewrite (H 0%nat x y) by auto. simpl. rewrite (IH r); auto.
  intros i. apply (H (S i)).
Qed.

Lemma get_latch_information_ok a c : represents a c -> circuit_wf c -> circuit_fits c ->
  get_latch_information a = Ok (latch_infos c).
Proof.
  intros Hr Hwf Hf. unfold get_latch_information.
  replace (latches a) with (numbers (c_inputs c + 1) (lenN (c_latches c)))
    by (unfold represents in Hr; symmetry; tauto).
  apply mapM_nth. { rewrite numbers_length, latch_infos_length. unfold lenN. lia. }
  intros i x y Hx Hy. pose proof (nth_error_some_lt _ _ _ Hy) as Hl.
  rewrite latch_infos_length in Hl. destruct (nth_error_lt _ _ Hl) as ((n, r) & E).
  rewrite (latch_infos_nth _ _ _ _ E) in Hy. inv Hy.
  rewrite numbers_nth in Hx by (unfold lenN; lia). inv Hx.
  fold (latch_var c i).
  destruct (latch_node a c (latch_var c i) n r Hr Hwf Hf) as (nd & E1 & E2 & E3 & E4 & E5).
  { exists i; auto. }
  rewrite E1. cbn [bind]. rewrite E4. cbn [bind]. rewrite E5. cbn [bind]. rewrite E2. reflexivity.
Qed.
