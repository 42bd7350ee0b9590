(** The AIGER parser, restated as a sequence of small readers followed by one construction
    of the graph; every accepted file is a well-formed graph. *)
From Verif Require Import Base Aig AigParse Spec SpecAig SpecAiger Tac AigFacts SimFacts.
Open Scope N_scope.

Definition bare (t : AIGNodeType) (lit nx rs r0 r1 : N) : AIGNode :=
  mkNode t lit nx rs r0 r1 [] [] [] [] [].
Definition zero_node := bare ConstantZero 0 usize_max usize_max usize_max usize_max.
Definition input_node (v : N) := bare Input (2 * v) usize_max usize_max usize_max usize_max.
Definition latch_node_of (v : N) (x : N * N) := bare Latch (2 * v) (fst x) (snd x) usize_max usize_max.
Definition gate_node_of (v : N) (x : N * N) := bare And (2 * v) usize_max usize_max (fst x) (snd x).

Definition graph_nodes (c : circuit) : list AIGNode :=
  zero_node :: map input_node (numbers 1 (c_inputs c)) ++
  map (fun e => latch_node_of (latch_var c (fst e)) (snd e)) (number_items (c_latches c)) ++
  map (fun e => gate_node_of (gate_var c (fst e)) (snd e)) (number_items (c_ands c)).

Definition graph (c : circuit) : AIG :=
  mkAIG (c_max c) (c_inputs c) (lenN (c_latches c)) (lenN (c_outputs c)) (lenN (c_ands c))
    (lenN (c_bad c)) (lenN (c_constraints c)) 0 0
    (graph_nodes c) (numbers 1 (c_inputs c))
    (numbers (c_inputs c + 1) (lenN (c_latches c)))
    (numbers (c_inputs c + lenN (c_latches c) + 1) (lenN (c_ands c)))
    (c_outputs c) (c_bad c) (c_constraints c) [].

(* ------------------------------------------------------------- generic loops *)

Lemma lenN_app {A} (l1 l2 : list A) : lenN (l1 ++ l2) = lenN l1 + lenN l2.
Proof. unfold lenN. rewrite app_length. lia. Qed.

Lemma lenN_cons {A} (x : A) l : lenN (x :: l) = lenN l + 1.
Proof. unfold lenN. cbn [length]. lia. Qed.

Lemma numbers_cons f n : numbers f (n + 1) = f :: numbers (f + 1) n.
Proof.
  unfold numbers. replace (N.to_nat (n + 1)) with (S (N.to_nat n)) by lia. cbn [seq map].
  f_equal; [lia|]. rewrite <- seq_shift, map_map. apply map_ext. intros. lia.
Qed.

Lemma combine_map_l {A B C} (f : A -> B) (l1 : list A) (l2 : list C) :
  combine (map f l1) l2 = map (fun p => (f (fst p), snd p)) (combine l1 l2).
Proof.
  revert l2; induction l1 as [|x l1 IH]; intros [|y l2]; simpl; auto. rewrite IH; auto.
Qed.

Lemma lenN_range n : lenN (range n) = n.
Proof. unfold range, lenN. rewrite map_length, seq_length. lia. Qed.

Lemma range_numbers n : range n = numbers 0 n.
Proof. unfold range, numbers. apply map_ext. intros; lia. Qed.

Lemma mapM_length {A B} (f : A -> res B) l r : mapM f l = Ok r -> length r = length l.
Proof. intros H. apply mapM_ok in H. induction H; simpl; auto. Qed.

(** A loop that pushes a node and its index per element. *)
Lemma foldM_push {A B} (g : A -> res B) (mk : A -> B -> AIGNode) l ns ids :
  foldM (fun st i => let '(ns, ids) := st in
                     x <- g i ;; Ok (ns ++ [mk i x], ids ++ [lenN ns])) l (ns, ids) =
  (xs <- mapM g l ;;
   Ok (ns ++ map (fun p => mk (fst p) (snd p)) (combine l xs), ids ++ numbers (lenN ns) (lenN l))).
Proof.
  revert ns ids. induction l as [|i l IH]; intros ns ids.
  - simpl. rewrite !app_nil_r. reflexivity.
  - cbn [foldM mapM]. destruct (g i) as [x| |]; cbn [bind]; auto.
    rewrite IH. destruct (mapM g l) as [xs| |]; cbn [bind combine map fst snd]; auto.
    rewrite <- !app_assoc. cbn [app].
    rewrite lenN_app, (lenN_cons i), numbers_cons. reflexivity.
Qed.

Lemma combine_range_items {A} n (xs : list A) : lenN xs = n ->
  combine (range n) xs = map (fun e => (N.of_nat (fst e), snd e)) (number_items xs).
Proof.
  intros <-. unfold range, number_items, lenN. rewrite Nat2N.id.
  generalize 0%nat. induction xs as [|x xs IH]; intros k; simpl; auto. rewrite IH. reflexivity.
Qed.

Lemma foldM_ext {A S} (f g : S -> A -> res S) l s : (forall s x, f s x = g s x) ->
  foldM f l s = foldM g l s.
Proof.
  intros H. revert s; induction l as [|x l IH]; simpl; intros s; auto.
  rewrite H. destruct (g s x); simpl; auto.
Qed.

Lemma node_new_even v t : node_new (2 * v) t =
  Ok (mkNode t (2 * v) usize_max usize_max usize_max usize_max [] [] [] [] []).
Proof. unfold node_new. replace (2 * v mod 2 =? 0) with true by lia. reflexivity. Qed.

(* ---------------------------------------------------------------- each segment *)

Lemma create_input_nodes_eq h ns : create_input_nodes h ns =
  Ok (ns ++ map input_node (numbers 1 (h_inputs h)), numbers (lenN ns) (h_inputs h)).
Proof.
  unfold create_input_nodes.
  rewrite (foldM_ext _ (fun st i => let '(ns, ids) := st in
     x <- (fun _ => Ok tt) i ;; Ok (ns ++ [input_node (i + 1)], ids ++ [lenN ns]))).
  2:{ intros (ns', ids) i. rewrite node_new_even. reflexivity. }
  rewrite (foldM_push (fun _ => Ok tt) (fun i _ => input_node (i + 1))).
  rewrite (mapM_total _ (fun _ => tt)) by reflexivity. cbn [bind].
  rewrite lenN_range. cbn [app]. do 3 f_equal.
  unfold range, numbers. rewrite !map_map.
  generalize (seq 0 (N.to_nat (h_inputs h))). induction l as [|x l IH]; simpl; auto.
  rewrite IH. f_equal. f_equal. lia.
Qed.

(** One latch line. *)
Definition latch_line (h : Header) (lines : list bytes) (i : N) : res (N * N) :=
  line <- index lines (i + 1) ;;
  line <- from_utf8 line ;;
  let p := split_spaces [] line in
  _ <- assert_ ((length p =? 1) || (length p =? 2))%nat ;;
  t <- indexn p 0 ;;
  n <- convert_string_to_number t ;;
  _ <- check_literal h n ;;
  if (length p =? 2)%nat then
    t <- indexn p 1 ;;
    r <- convert_string_to_number t ;;
    _ <- assert_ ((r =? 0) || (r =? 1) || (r =? 2 * (i + h_inputs h + 1))) ;;
    Ok (n, r)
  else Ok (n, 0).

Lemma create_latch_node_eq h lines ns ls i :
  create_latch_node h lines (ns, ls) i =
  (x <- latch_line h lines i ;;
   Ok (ns ++ [latch_node_of (i + h_inputs h + 1) x], ls ++ [lenN ns])).
Proof.
  unfold create_latch_node, latch_line. rewrite node_new_even. cbn [bind].
  destruct (index lines (i + 1)) as [line| |]; cbn [bind]; auto.
  destruct (from_utf8 line) as [line'| |]; cbn [bind]; auto.
  destruct (assert_ _) eqn:E; cbn [bind]; auto.
  destruct (indexn _ 0) as [t| |]; cbn [bind]; auto.
  destruct (convert_string_to_number t) as [n| |]; cbn [bind]; auto.
  destruct (check_literal h n) as [[]| |]; cbn [bind]; auto.
  unfold set_input_of_latch. cbn [node_type node_type_eqb assert_ bind].
  destruct (length (split_spaces [] line') =? 2)%nat.
  - destruct (indexn _ 1) as [t'| |]; cbn [bind]; auto.
    destruct (convert_string_to_number t') as [r| |]; cbn [bind]; auto.
    unfold set_reset_of_latch. cbn [node_type node_lit node_type_eqb].
    destruct ((r =? 0) || (r =? 1) || _) eqn:Er; cbn [assert_ bind]; auto.
  - unfold set_reset_of_latch. cbn [node_type node_lit node_type_eqb assert_ bind].
    replace (0 =? 0) with true by lia. cbn [orb assert_ bind]. reflexivity.
Qed.

Lemma create_latch_nodes_eq h lines ns : create_latch_nodes h lines ns =
  (xs <- mapM (latch_line h lines) (range (h_latches h)) ;;
   Ok (ns ++ map (fun e => latch_node_of (h_inputs h + 1 + N.of_nat (fst e)) (snd e))
              (number_items xs), numbers (lenN ns) (h_latches h))).
Proof.
  unfold create_latch_nodes.
  rewrite (foldM_ext _ (fun st i => let '(ns, ids) := st in
     x <- latch_line h lines i ;;
     Ok (ns ++ [latch_node_of (i + h_inputs h + 1) x], ids ++ [lenN ns]))).
  2:{ intros (ns', ids) i. apply create_latch_node_eq. }
  rewrite (foldM_push (latch_line h lines) (fun i x => latch_node_of (i + h_inputs h + 1) x)).
  destruct (mapM _ _) as [xs| |] eqn:E; cbn [bind]; auto.
  rewrite lenN_range. do 3 f_equal.
  apply mapM_length in E. rewrite combine_range_items.
  - rewrite map_map. apply map_ext. intros (j, x). cbn [fst snd]. f_equal. lia.
  - unfold lenN. rewrite E. apply lenN_range.
Qed.

(** The gates. *)
Fixpoint read_gates (n : nat) (lhs : N) (data : bytes) : res (list (N * N) * bytes) :=
  match n with
  | O => Ok ([], data)
  | S n' =>
      let lhs := lhs + 2 in
      '(delta, data) <- read_delta data ;;
      _ <- assert_ (delta <=? lhs) ;;
      let rhs0 := lhs - delta in
      '(delta, data) <- read_delta data ;;
      _ <- assert_ (delta <=? rhs0) ;;
      let rhs1 := rhs0 - delta in
      _ <- assert_ ((rhs0 <? lhs) && (rhs1 <=? rhs0)) ;;
      '(gs, data) <- read_gates n' lhs data ;;
      Ok ((rhs0, rhs1) :: gs, data)
  end.

Lemma read_gates_eq : forall l base ns ids data,
  foldM create_and_node l (2 * base, ns, ids, data) =
  ('(gs, data) <- read_gates (length l) (2 * base) data ;;
   Ok (2 * (base + lenN l),
       ns ++ map (fun e => gate_node_of (base + 1 + N.of_nat (fst e)) (snd e)) (number_items gs),
       ids ++ numbers (lenN ns) (lenN l), data)).
Proof.
  induction l as [|i l IH]; intros base ns ids data.
  - cbn. rewrite !app_nil_r. do 4 f_equal. unfold lenN; simpl. lia.
  - cbn [foldM length read_gates]. unfold create_and_node at 1. 
    destruct (read_delta data) as [(d0, data0)| |]; cbn [bind]; auto.
    destruct (assert_ _) as [[]| |]; cbn [bind]; auto.
    destruct (read_delta data0) as [(d1, data1)| |]; cbn [bind]; auto.
    destruct (assert_ (d1 <=? _)) as [[]| |]; cbn [bind]; auto.
    destruct (assert_ (_ && _)) as [[]| |]; cbn [bind]; auto.
    replace (2 * base + 2) with (2 * (base + 1)) by lia. rewrite node_new_even. cbn [bind].
    unfold set_rhs0_of_and, set_rhs1_of_and. cbn [node_type node_type_eqb assert_ bind].
    rewrite IH. destruct (read_gates _ _ data1) as [(gs, data2)| |]; cbn [bind]; auto.
    rewrite <- !app_assoc, lenN_app, (lenN_cons i), numbers_cons. cbn [app].
    change (lenN [_]) with 1.
    f_equal. f_equal. f_equal. f_equal.
    + lia.
    + f_equal. unfold number_items. cbn [length seq combine map fst snd]. f_equal.
      * unfold gate_node_of, bare. cbn [node_lit node_latch_input node_latch_reset node_and_input0
          node_and_input1 node_input_symbol node_latch_symbol node_output_symbol node_bad_symbol
          node_constraint_symbol fst snd]. f_equal. lia.
      * rewrite <- seq_shift, combine_map_l. rewrite map_map. apply map_ext.
        intros (j, x). cbn [fst snd]. f_equal. lia.
Qed.

(* --------------------------------------------------- the graph and its circuit *)

Lemma number_items_length {A} (l : list A) : length (number_items l) = length l.
Proof. unfold number_items. rewrite combine_length, seq_length. lia. Qed.

Lemma number_items_nth {A} (l : list A) j x : nth_error l j = Some x ->
  nth_error (number_items l) j = Some (j, x).
Proof.
  intros H. unfold number_items. apply nth_error_combine; auto.
  apply nth_error_seq. eapply nth_error_some_lt; eauto.
Qed.

Lemma graph_nodes_length c : length (graph_nodes c) = N.to_nat (c_max c + 1).
Proof.
  unfold graph_nodes. cbn [length]. rewrite !app_length, !map_length, !number_items_length,
    numbers_length. unfold c_max, lenN. lia.
Qed.

Lemma graph_nodes_nth c i n : nth_error (graph_nodes c) i = Some n -> node_is c (N.of_nat i) n.
Proof.
  unfold graph_nodes. destruct i as [|i].
  { simpl. intros H; inv H. split; [reflexivity|]. left; auto. }
  cbn [nth_error]. intros H.
  set (A := map input_node _) in H. set (B := map _ (number_items (c_latches c))) in H.
  set (C := map _ (number_items (c_ands c))) in H.
  assert (LA : length A = N.to_nat (c_inputs c)) by (unfold A; rewrite map_length, numbers_length; auto).
  assert (LB : length B = length (c_latches c)) by (unfold B; rewrite map_length, number_items_length; auto).
  assert (LC : length C = length (c_ands c)) by (unfold C; rewrite map_length, number_items_length; auto).
  destruct (Nat.ltb_spec i (length A)) as [H1|H1].
  - rewrite nth_error_app1 in H by auto. unfold A in H. rewrite nth_error_map in H.
    rewrite numbers_nth in H by lia. simpl in H. inv H.
    replace (1 + N.of_nat i) with (N.of_nat (S i)) by lia.
    split; [reflexivity|]. right; left. split; auto. unfold is_input. lia.
  - rewrite nth_error_app2 in H by auto.
    destruct (Nat.ltb_spec (i - length A) (length B)) as [H2|H2].
    + rewrite nth_error_app1 in H by auto. rewrite LB in H2.
      destruct (nth_error_lt _ _ H2) as ((nx, r) & E). unfold B in H.
      rewrite nth_error_map, (number_items_nth _ _ _ E) in H. simpl in H. inv H.
      replace (N.of_nat (S i)) with (latch_var c (i - length A)) by (unfold latch_var; lia).
      split; [reflexivity|]. right; right; left. exists nx, r. repeat split; auto.
      eexists; split; eauto.
    + rewrite nth_error_app2 in H by auto.
      pose proof (nth_error_some_lt _ _ _ H) as H3. rewrite LC in H3.
      destruct (nth_error_lt _ _ H3) as ((r0, r1) & E). unfold C in H.
      rewrite nth_error_map, (number_items_nth _ _ _ E) in H. simpl in H. inv H.
      replace (N.of_nat (S i)) with (gate_var c (i - length A - length B))
        by (unfold gate_var, lenN; lia).
      split; [reflexivity|]. right; right; right. exists r0, r1. repeat split; auto.
      eexists; split; eauto.
Qed.

Lemma graph_represents c : represents (graph c) c.
Proof.
  unfold represents. cbn [graph maximum_variable_index number_of_inputs number_of_latches
    number_of_and_gates number_of_outputs number_of_bad number_of_constraints number_of_justice
    number_of_fairness nodes inputs latches ands outputs bad constraints].
  repeat split; auto.
  - unfold lenN at 1. rewrite graph_nodes_length. lia.
  - apply graph_nodes_nth in H. apply H.
  - apply graph_nodes_nth in H. apply H.
Qed.

(** Symbols do not matter for what is represented. *)
Definition same_core (n n' : AIGNode) : Prop :=
  node_type n = node_type n' /\ node_lit n = node_lit n' /\
  node_latch_input n = node_latch_input n' /\ node_latch_reset n = node_latch_reset n' /\
  node_and_input0 n = node_and_input0 n' /\ node_and_input1 n = node_and_input1 n'.

Lemma same_core_is c i n n' : same_core n n' -> node_is c i n -> node_is c i n'.
Proof.
  intros (E1 & E2 & E3 & E4 & E5 & E6) (El & H). unfold node_is.
  rewrite <- E2, <- E1, <- E3, <- E4, <- E5, <- E6. auto.
Qed.

Lemma set_nth_length {A} (l : list A) i x : length (set_nth l i x) = length l.
Proof. revert i; induction l as [|y l IH]; intros [|i]; simpl; auto. Qed.

Lemma set_nth_same {A} (l : list A) i x : (i < length l)%nat -> nth_error (set_nth l i x) i = Some x.
Proof. revert i; induction l as [|y l IH]; intros [|i]; simpl; intros; auto; try lia. apply IH. lia. Qed.

Lemma set_nth_other {A} (l : list A) i j x : i <> j -> nth_error (set_nth l i x) j = nth_error l j.
Proof.
  revert i j; induction l as [|y l IH]; intros [|i] [|j] H; simpl; auto; try congruence.
Qed.

Lemma replace_nodes_represents a c ns : represents a c ->
  length ns = length (nodes a) ->
  (forall i n, nth_error ns i = Some n -> exists n0, nth_error (nodes a) i = Some n0 /\ same_core n0 n) ->
  represents (replace_nodes a ns) c.
Proof.
  intros Hr Hl Hs. unfold represents in *.
  cbn [replace_nodes maximum_variable_index number_of_inputs number_of_latches
    number_of_and_gates number_of_outputs number_of_bad number_of_constraints number_of_justice
    number_of_fairness nodes inputs latches ands outputs bad constraints].
  decompose [and] Hr; clear Hr. repeat (split; [solve [auto]|]).
  split. { unfold lenN in *. rewrite Hl. auto. }
  split; [|tauto].
  intros i n E. destruct (Hs i n E) as (n0 & E0 & Hc). eapply same_core_is; eauto.
Qed.

Lemma update_node_represents a a' c i f : represents a c ->
  (forall n n', f n = Ok n' -> same_core n n') ->
  update_node a i f = Ok a' -> represents a' c.
Proof.
  intros Hr Hf H. unfold update_node in H. binds. apply index_ok in E.
  apply replace_nodes_represents; auto.
  - apply set_nth_length.
  - intros j n Hj. destruct (Nat.eq_dec (N.to_nat i) j) as [<-|Hne].
    + rewrite set_nth_same in Hj by (eapply nth_error_some_lt; eauto). inv Hj. eauto.
    + rewrite set_nth_other in Hj by auto. exists n. split; auto. unfold same_core; auto 10.
Qed.

Lemma add_symbol_represents a a' c t p s : represents a c ->
  add_symbol_to_node a t p s = Ok a' -> represents a' c.
Proof.
  intros Hr H. unfold add_symbol_to_node in H.
  repeat match type of H with (if ?b then _ else _) = _ => destruct b end; try discriminate;
    binds; eapply update_node_represents; eauto;
    intros n n' Hn;
    unfold set_input_symbol, set_latch_symbol, set_output_symbol, set_bad_symbol,
      set_constraint_symbol in Hn; binds; unfold same_core; simpl; auto 10.
Qed.

Lemma read_symbol_line_represents a a' c l : represents a c ->
  read_symbol_line a l = Ok a' -> represents a' c.
Proof.
  intros Hr H. unfold read_symbol_line in H. binds.
  destruct a1 as [|x [|y r]]; try discriminate. binds.
  eapply add_symbol_represents; eauto.
Qed.

Lemma read_symbol_lines_represents c : forall ls a a', represents a c ->
  read_symbol_lines a ls = Ok a' -> represents a' c.
Proof.
  induction ls as [|l ls IH]; cbn [read_symbol_lines]; intros a a' Hr H; binds; auto.
  destruct (list_eqb _ _); binds.
  - exact Hr.
  - eapply IH; [|eauto]. eapply read_symbol_line_represents; eauto.
Qed.

(* ----------------------------------------------------------- the parser restated *)

Definition parse_circuit (data : bytes) : res (circuit * bytes) :=
  let lines := split_lines [] data in
  h <- check_first_line lines ;;
  _ <- allocate_vectors h ;;
  ls <- mapM (latch_line h lines) (range (h_latches h)) ;;
  os <- create_literal_lines h lines (h_outputs h) (h_latches h) ;;
  bs <- create_literal_lines h lines (h_bad h) (h_latches h + h_outputs h) ;;
  cs <- create_literal_lines h lines (h_constraints h) (h_latches h + h_outputs h + h_bad h) ;;
  data <- skip_lines (N.to_nat (1 + h_latches h + h_outputs h + h_bad h + h_constraints h)) data ;;
  '(gs, data) <- read_gates (N.to_nat (h_ands h)) (2 * (h_inputs h + h_latches h)) data ;;
  Ok (mkCircuit (h_inputs h) ls os bs cs gs, data).

Lemma literal_lines_length h lines n k r :
  create_literal_lines h lines n k = Ok r -> lenN r = n.
Proof. intros H. apply mapM_length in H. unfold lenN. rewrite H. apply lenN_range. Qed.

Lemma read_gates_length : forall n lhs data gs rest,
  read_gates n lhs data = Ok (gs, rest) -> length gs = n.
Proof.
  induction n as [|n IH]; cbn [read_gates]; intros lhs data gs rest H; binds; auto.
  destruct a as (d0, data0). binds. destruct a0 as (d1, data1). binds.
  destruct a2 as (gs', data2). binds. simpl. f_equal. eauto.
Qed.

Lemma header_ok lines h : check_first_line lines = Ok h ->
  h_max h = h_inputs h + h_latches h + h_ands h /\ h_justice h = 0 /\ h_fairness h = 0.
Proof.
  unfold check_first_line. intros H. binds.
  cbn [h_max h_inputs h_latches h_ands h_justice h_fairness]. lia.
Qed.

Lemma allocate_ok h : forall ns, allocate_vectors h = Ok ns -> ns = [zero_node].
Proof.
  intros ns H. unfold allocate_vectors in H. binds.
  unfold node_new in *. binds. reflexivity.
Qed.

Lemma parse_eq data : from_vector_of_bytes data =
  ('(c, rest) <- parse_circuit data ;;
   a <- read_symbols_and_comments (graph c) rest ;;
   _ <- check_aig a ;; Ok a).
Proof.
  unfold from_vector_of_bytes, parse_circuit. cbv zeta.
  destruct (check_first_line _) as [h| |] eqn:Eh; cbn [bind]; auto.
  apply header_ok in Eh. destruct Eh as (Em & Ej & Ef).
  destruct (allocate_vectors h) as [ns| |] eqn:Ea; cbn [bind]; auto.
  apply allocate_ok in Ea. subst ns. rewrite create_input_nodes_eq. cbn [bind].
  rewrite create_latch_nodes_eq.
  destruct (mapM _ _) as [ls| |] eqn:El; cbn [bind]; auto.
  apply mapM_length in El.
  assert (Ll : lenN ls = h_latches h) by (unfold lenN; rewrite El; apply lenN_range). clear El.
  destruct (create_literal_lines h _ (h_outputs h) _) as [os| |] eqn:Eo; cbn [bind]; auto.
  apply literal_lines_length in Eo.
  destruct (create_literal_lines h _ (h_bad h) _) as [bds| |] eqn:Eb; cbn [bind]; auto.
  apply literal_lines_length in Eb.
  destruct (create_literal_lines h _ (h_constraints h) _) as [cs| |] eqn:Ec; cbn [bind]; auto.
  apply literal_lines_length in Ec.
  unfold create_and_nodes.
  destruct (skip_lines _ data) as [data'| |]; cbn [bind]; auto.
  rewrite read_gates_eq. unfold range at 1. rewrite map_length, seq_length.
  destruct (read_gates _ _ data') as [(gs, rest)| |] eqn:Eg; cbn [bind]; auto.
  apply read_gates_length in Eg.
  assert (Lg : lenN gs = h_ands h) by (unfold lenN; lia). clear Eg.
  rewrite lenN_range.
  match goal with |- bind (read_symbols_and_comments ?x _) _ = bind (read_symbols_and_comments ?y _) _ =>
    assert (Ex : x = y) end.
  { unfold graph. cbn [c_inputs c_latches c_ands c_outputs c_bad c_constraints].
    rewrite Ll, Lg, Eo, Eb, Ec, Ej, Ef. f_equal.
    - unfold c_max. cbn [c_inputs c_latches c_ands]. rewrite Ll, Lg. auto.
    - unfold graph_nodes. cbn [c_inputs c_latches c_ands app]. f_equal.
      rewrite <- app_assoc. f_equal. f_equal.
      apply map_ext. intros e. unfold gate_var. cbn [c_inputs c_latches]. rewrite Ll. reflexivity.
    - f_equal. rewrite lenN_app. unfold lenN. rewrite map_length, numbers_length. cbn [length]. lia.
    - cbn [app]. f_equal. rewrite <- Ll. unfold lenN.
      cbn [length]. rewrite !app_length, !map_length, numbers_length, number_items_length. lia. }
  rewrite Ex. reflexivity.
Qed.

Lemma latch_line_ok h lines i n r : latch_line h lines i = Ok (n, r) ->
  lit_var n <= h_max h /\ (r = 0 \/ r = 1 \/ r = 2 * (h_inputs h + 1 + i)).
Proof.
  unfold latch_line. intros H. binds. unfold check_literal in *.
  destruct (_ =? 2)%nat; binds; rewrite shiftr_var in *; split; try lia.
Qed.

Lemma literal_lines_ok h lines n k r : create_literal_lines h lines n k = Ok r ->
  Forall (fun l => lit_var l <= h_max h) r.
Proof.
  intros H. apply mapM_ok in H. induction H; constructor; auto.
  binds. unfold check_literal in *. binds. rewrite shiftr_var in *. lia.
Qed.

Lemma read_gates_ok : forall n base data gs rest,
  read_gates n (2 * base) data = Ok (gs, rest) ->
  forall j r0 r1, nth_error gs j = Some (r0, r1) -> r1 <= r0 < 2 * (base + 1 + N.of_nat j).
Proof.
  induction n as [|n IH]; cbn [read_gates]; intros base data gs rest H; binds.
  { intros [|j]; discriminate. }
  destruct a as (d0, data0). binds. destruct a0 as (d1, data1). binds.
  destruct a2 as (gs', data2). binds.
  intros [|j] r0 r1 Hj.
  - simpl in Hj. inv Hj. lia.
  - cbn [nth_error] in Hj. replace (2 * base + 2) with (2 * (base + 1)) in * by lia.
    match goal with X : read_gates _ _ _ = _ |- _ => specialize (IH _ _ _ _ X _ _ _ Hj) end. lia.
Qed.

Lemma Forall2_nth {A B} (P : A -> B -> Prop) l r i y : Forall2 P l r -> nth_error r i = Some y ->
  exists x, nth_error l i = Some x /\ P x y.
Proof.
  intros H. revert i; induction H; intros [|i] E; simpl in *; try discriminate; eauto.
  inv E; eauto.
Qed.

Lemma parse_circuit_ok data c rest : parse_circuit data = Ok (c, rest) ->
  circuit_wf c /\ circuit_fits c.
Proof.
  unfold parse_circuit. intros H. binds. destruct a6 as (gs, data'). binds.
  match goal with X : check_first_line _ = _ |- _ => apply header_ok in X; destruct X as (Em & _) end.
  match goal with X : mapM _ _ = _ |- _ => pose proof (mapM_length _ _ _ X) as Ll;
    apply mapM_ok in X; rename X into HL end.
  match goal with X : read_gates _ _ _ = _ |- _ => pose proof (read_gates_length _ _ _ _ _ X) as Lg;
    pose proof (read_gates_ok _ _ _ _ _ X) as HG end.
  repeat match goal with X : create_literal_lines _ _ _ _ = _ |- _ => apply literal_lines_ok in X end.
  assert (Ll' : lenN a1 = h_latches a) by (unfold lenN; rewrite Ll; apply lenN_range).
  assert (EM : c_max {| c_inputs := h_inputs a; c_latches := a1; c_outputs := a2; c_bad := a3;
                        c_constraints := a4; c_ands := gs |} = h_max a).
  { unfold c_max. cbn [c_inputs c_latches c_ands]. rewrite Ll', Em. unfold lenN. lia. }
  split.
  - unfold circuit_wf, lit_in_range. rewrite EM. cbn [c_outputs c_bad c_constraints].
    split; [|repeat (split; [assumption|])].
    + intros v nx r (j & Hj & Hv). cbn [c_latches] in Hj.
      destruct (Forall2_nth _ _ _ _ _ HL Hj) as (i & Hi & Hline).
      apply latch_line_ok in Hline. rewrite range_numbers in Hi.
      rewrite numbers_nth in Hi.
      * inv Hi. unfold latch_var. cbn [c_inputs].
        replace (h_inputs a + 1 + (0 + N.of_nat j)) with (h_inputs a + 1 + N.of_nat j) in Hline by lia.
        auto.
      * apply nth_error_some_lt in Hj. unfold lenN in Ll'. lia.
    + intros v r0 r1 (j & Hj & ->). cbn [c_ands] in Hj. apply HG in Hj.
      unfold gate_var. cbn [c_inputs c_latches]. rewrite Ll'. auto.
  - unfold circuit_fits. rewrite EM.
    match goal with X : allocate_vectors _ = _ |- _ => unfold allocate_vectors in X end.
    binds. unfold isize_max in *. lia.
Qed.

(** Every accepted file is a well-formed graph. *)
Lemma accepted_ok data a : from_vector_of_bytes data = Ok a ->
  exists c, represents a c /\ circuit_wf c /\ circuit_fits c.
Proof.
  rewrite parse_eq. intros H. binds. destruct a0 as (c, rest). binds.
  exists c. split; [|eapply parse_circuit_ok; eauto].
  unfold read_symbols_and_comments in *. eapply read_symbol_lines_represents; eauto.
  apply graph_represents.
Qed.
