(** The ASCII export: which lines it consists of, and that a reader recovers them. *)
From Verif Require Import Base Aig AigParse AigPrint Spec SpecAig SpecText SpecAiger Tac TextFacts
  AigFacts SimFacts ParseFacts EncodeFacts SymbolFacts.
Open Scope N_scope.
Import String.StringSyntax.
Arguments bs s%string_scope.

Lemma foldM_table {E} (f : list bytes * list bytes -> E -> res (list bytes * list bytes))
  (text : E -> bytes) (sym : E -> list bytes) l : forall r t,
  (forall e r t, In e l -> f (r, t) e = Ok (r ++ [text e], t ++ sym e)) ->
  foldM f l (r, t) = Ok (r ++ map text l, t ++ flat_map sym l).
Proof.
  induction l as [|e l IH]; intros r t H; cbn [foldM map flat_map].
  - rewrite !app_nil_r. reflexivity.
  - rewrite H by (left; auto). cbn [bind]. rewrite IH by (intros; apply H; right; auto).
    rewrite <- !app_assoc. reflexivity.
Qed.

Definition node_of (a : AIG) (v : N) : AIGNode := nth (N.to_nat v) (nodes a) zero_node.

Lemma node_of_index a v n : index (nodes a) v = Ok n -> node_of a v = n.
Proof. intros H. apply index_ok in H. apply nth_error_nth. auto. Qed.

Definition named (k : kind) (p : N) (s : bytes) : list symbol :=
  match s with [] => [] | _ => [(k, p, s)] end.
Definition sym_out (a : AIG) (c : circuit) (k : kind) (p : N) : list bytes :=
  map symbol_body (named k p (sym_field k (node_of a (target c k p)))).
Definition all_kinds : list kind := [K_input; K_latch; K_output; K_bad; K_constraint].
Definition kind_lines (a : AIG) (c : circuit) (k : kind) : list bytes :=
  flat_map (sym_out a c k) (numbers 0 (kind_count c k)).
Definition sym_lines (a : AIG) (c : circuit) : list bytes :=
  flat_map (kind_lines a c) all_kinds.

Definition aag_header (c : circuit) : bytes :=
  words ([bs "aag"; dec (c_max c); dec (c_inputs c); dec (lenN (c_latches c));
          dec (lenN (c_outputs c)); dec (lenN (c_ands c))]
         ++ (if 0 <? lenN (c_bad c) + lenN (c_constraints c) then [dec (lenN (c_bad c))] else [])
         ++ (if 0 <? lenN (c_constraints c) then [dec (lenN (c_constraints c))] else [])).
Definition aag_latch_line (e : N * N * N) : bytes :=
  let '(l, n, r) := e in words ([dec l; dec n] ++ if negb (r =? 0) then [dec r] else []).
Definition aag_gate_line (e : N * N * N) : bytes :=
  let '(l, n, r) := e in words [dec l; dec n; dec r].
Definition aag_lines (c : circuit) : list bytes :=
  aag_header c :: map dec (g_inputs (aag_of c)) ++ map aag_latch_line (g_latches (aag_of c))
  ++ map dec (c_outputs c) ++ map dec (c_bad c) ++ map dec (c_constraints c)
  ++ map aag_gate_line (g_ands (aag_of c)).

Lemma enumerate_numbers l : enumerate l = map (fun p => (p, nth (N.to_nat p) l 0)) (numbers 0 (lenN l)).
Proof.
  apply nth_ext with (d := (0, 0)) (d' := (0, nth (N.to_nat 0) l 0)).
  - unfold enumerate. rewrite combine_length, !map_length, seq_length, numbers_length.
    unfold lenN. lia.
  - intros i Hi. unfold enumerate in *. rewrite combine_length, map_length, seq_length in Hi.
    rewrite combine_nth by (rewrite map_length, seq_length; auto).
    rewrite (map_nth (fun p => (p, nth (N.to_nat p) l 0)) (numbers 0 (lenN l)) 0 i).
    change 0 with (N.of_nat 0) at 1. rewrite map_nth, seq_nth by lia.
    assert (E : nth i (numbers 0 (lenN l)) 0 = N.of_nat i).
    { apply nth_error_nth. rewrite numbers_nth by (unfold lenN; lia). reflexivity. }
    rewrite E, Nat2N.id. reflexivity.
Qed.

Lemma push_symbol_eq table k p s : push_symbol table (kind_letter k) p s =
  table ++ map symbol_body (named k p s).
Proof.
  destruct s as [|x s]; cbn [push_symbol named map]; [rewrite app_nil_r; auto|].
  unfold symbol_body, words. cbn [join]. rewrite <- app_assoc. reflexivity.
Qed.

Lemma nth_kind_list c k p : nth (N.to_nat p) (kind_list c k) 0 = target c k p.
Proof. reflexivity. Qed.

Lemma flat_map_map {A B C} (f : B -> list C) (g : A -> B) l :
  flat_map f (map g l) = flat_map (fun x => f (g x)) l.
Proof. induction l; simpl; congruence. Qed.

Lemma foldM_ok_bind {A} (m : res A) x : m = Ok x -> m = Ok x.
Proof. auto. Qed.

Section Print.
Variables (a : AIG) (c : circuit).
Hypotheses (Hr : represents a c) (Hwf : circuit_wf c) (Hfit : circuit_fits c).

Lemma print_inputs r t :
  foldM (aag_input a) (enumerate (inputs a)) (r, t) =
  Ok (r ++ map dec (g_inputs (aag_of c)), t ++ kind_lines a c K_input).
Proof.
  replace (inputs a) with (numbers 1 (c_inputs c)) by (unfold represents in Hr; symmetry; tauto).
  rewrite enumerate_numbers.
  assert (EL : lenN (numbers 1 (c_inputs c)) = c_inputs c)
    by (unfold lenN; rewrite numbers_length; lia).
  rewrite EL.
  rewrite (foldM_table _ (fun e => dec (2 * snd e)) (fun e => sym_out a c K_input (fst e))).
  - rewrite flat_map_map. cbn [fst]. f_equal. f_equal. f_equal.
    cbn [aag_of g_inputs]. rewrite !map_map. cbn [snd].
    apply nth_ext with (d := dec (2 * nth (N.to_nat 0) (numbers 1 (c_inputs c)) 0)) (d' := dec (2 * 0)).
    + rewrite !map_length, !numbers_length. auto.
    + intros i Hi. rewrite map_length, numbers_length in Hi.
      rewrite (map_nth (fun x => dec (2 * nth (N.to_nat x) (numbers 1 (c_inputs c)) 0))).
      rewrite (map_nth (fun x => dec (2 * x))). f_equal. f_equal. f_equal.
      assert (E : nth i (numbers 0 (c_inputs c)) 0 = N.of_nat i).
      { apply nth_error_nth. rewrite numbers_nth by lia. f_equal; lia. }
      rewrite E. lia.
  - intros e r' t' He. apply in_map_iff in He. destruct He as (p & <- & Hp). apply in_numbers in Hp.
    cbn [fst snd aag_input]. change (nth (N.to_nat p) (numbers 1 (c_inputs c)) 0) with (target c K_input p).
    assert (Hv : is_input c (target c K_input p)).
    { unfold target. pose proof (nth_In (kind_list c K_input) 0 (n := N.to_nat p)) as Hin.
      rewrite kind_list_length in Hin. specialize (Hin ltac:(cbn [kind_count]; lia)).
      unfold kind_list in Hin at 2. apply in_numbers in Hin. unfold is_input. lia. }
    destruct (node_at a c _ Hr (input_le_max _ _ Hv)) as (n & En & Hn). rewrite En. cbn [bind].
    destruct (node_is_input _ _ _ Hn Hv) as (E1 & E2).
    unfold get_input_symbol. rewrite E2. cbn [node_type_eqb assert_ bind]. rewrite E1.
    change (bs "i") with (kind_letter K_input). rewrite push_symbol_eq. unfold sym_out.
    rewrite (node_of_index _ _ _ En). reflexivity.
Qed.

Lemma print_latches r t :
  foldM (aag_latch a) (enumerate (latches a)) (r, t) =
  Ok (r ++ map aag_latch_line (g_latches (aag_of c)), t ++ kind_lines a c K_latch).
Proof.
  replace (latches a) with (numbers (c_inputs c + 1) (lenN (c_latches c)))
    by (unfold represents in Hr; symmetry; tauto).
  rewrite enumerate_numbers.
  set (L := lenN (c_latches c)).
  assert (EL : lenN (numbers (c_inputs c + 1) L) = L) by (unfold lenN; rewrite numbers_length; lia).
  rewrite EL.
  rewrite (foldM_table _
    (fun e => let x := nth (N.to_nat (fst e)) (c_latches c) (0, 0) in
              aag_latch_line (2 * snd e, fst x, snd x))
    (fun e => sym_out a c K_latch (fst e))).
  - rewrite flat_map_map. cbn [fst]. f_equal. f_equal. f_equal.
    cbn [aag_of g_latches]. rewrite !map_map. cbn [snd].
    unfold number_items.
    apply nth_ext with (d := (fun x => let x0 := nth (N.to_nat x) (c_latches c) (0, 0) in
        aag_latch_line (2 * nth (N.to_nat x) (numbers (c_inputs c + 1) L) 0, fst x0, snd x0)) 0)
      (d' := (fun x : nat * (N * N) => aag_latch_line (2 * latch_var c (fst x), fst (snd x), snd (snd x))) (0%nat, (0, 0))).
    + rewrite !map_length, numbers_length, combine_length, seq_length. unfold L, lenN. lia.
    + intros i Hi. rewrite map_length, numbers_length in Hi.
      rewrite (map_nth (fun x => let x0 := nth (N.to_nat x) (c_latches c) (0, 0) in
        aag_latch_line (2 * nth (N.to_nat x) (numbers (c_inputs c + 1) L) 0, fst x0, snd x0))).
      rewrite (map_nth (fun x : nat * (N * N) => aag_latch_line (2 * latch_var c (fst x), fst (snd x), snd (snd x)))).
      assert (E : nth i (numbers 0 L) 0 = N.of_nat i).
      { apply nth_error_nth. rewrite numbers_nth by lia. f_equal; lia. }
      rewrite E, combine_nth by (rewrite seq_length; auto). unfold L, lenN in Hi.
      rewrite seq_nth by lia. cbn [fst snd plus]. rewrite Nat2N.id.
      assert (E2 : nth i (numbers (c_inputs c + 1) L) 0 = latch_var c i).
      { apply nth_error_nth. rewrite numbers_nth by (unfold L, lenN; lia). f_equal; unfold latch_var; lia. }
      rewrite E2. reflexivity.
  - intros e r' t' He. apply in_map_iff in He. destruct He as (p & <- & Hp). apply in_numbers in Hp.
    cbn [fst snd aag_latch].
    change (nth (N.to_nat p) (numbers (c_inputs c + 1) L) 0) with (target c K_latch p).
    assert (Hv : target c K_latch p = latch_var c (N.to_nat p)).
    { unfold target, kind_list. apply nth_error_nth. fold L. rewrite numbers_nth by lia. f_equal;
      unfold latch_var; lia. }
    destruct (nth_error (c_latches c) (N.to_nat p)) as [(nx, rs)|] eqn:El.
    2:{ apply nth_error_None in El. unfold L, lenN in Hp. lia. }
    assert (HL : latch c (target c K_latch p) nx rs) by (rewrite Hv; exists (N.to_nat p); auto).
    destruct (latch_node _ _ _ _ _ Hr Hwf Hfit HL) as (n & En & E1 & E2 & E3 & E4).
    rewrite En. cbn [bind]. rewrite E3. cbn [bind]. rewrite E4. cbn [bind].
    unfold get_latch_symbol. rewrite E1, E2. cbn [node_type_eqb assert_ bind].
    change (bs "l") with (kind_letter K_latch). rewrite push_symbol_eq. unfold sym_out.
    rewrite (node_of_index _ _ _ En). rewrite (nth_error_nth _ _ _ El). reflexivity.
Qed.

Lemma print_literals letter symbol_of k ls r t : letter = kind_letter k ->
  (forall n, symbol_of n = sym_field k n) -> kind_list c k = map lit_var ls ->
  Forall (lit_in_range c) ls ->
  foldM (aag_literal a letter symbol_of) (enumerate ls) (r, t) =
  Ok (r ++ map dec ls, t ++ kind_lines a c k).
Proof.
  intros -> Hs Hk HF. rewrite enumerate_numbers.
  assert (Hc : kind_count c k = lenN ls).
  { pose proof (kind_list_length c k) as X. rewrite Hk, map_length in X. unfold lenN. lia. }
  rewrite (foldM_table _ (fun e => dec (snd e)) (fun e => sym_out a c k (fst e))).
  - rewrite flat_map_map. cbn [fst]. unfold kind_lines. rewrite Hc. f_equal. f_equal. f_equal.
    rewrite map_map. cbn [snd].
    apply nth_ext with (d := (fun x => dec (nth (N.to_nat x) ls 0)) 0) (d' := dec 0).
    + rewrite !map_length, numbers_length. unfold lenN. lia.
    + intros i Hi. rewrite map_length, numbers_length in Hi.
      rewrite (map_nth (fun x => dec (nth (N.to_nat x) ls 0))), map_nth.
      assert (E : nth i (numbers 0 (lenN ls)) 0 = N.of_nat i).
      { apply nth_error_nth. rewrite numbers_nth by lia. f_equal; lia. }
      rewrite E, Nat2N.id. reflexivity.
  - intros e r' t' He. apply in_map_iff in He. destruct He as (p & <- & Hp). apply in_numbers in Hp.
    cbn [fst snd aag_literal]. rewrite shiftr_var.
    assert (Ht : lit_var (nth (N.to_nat p) ls 0) = target c k p).
    { unfold target. rewrite Hk. change 0 with (lit_var 0) at 2. rewrite map_nth. reflexivity. }
    rewrite Ht.
    assert (Hle : target c k p <= c_max c).
    { rewrite <- Ht. rewrite Forall_forall in HF. apply HF. apply nth_In. unfold lenN in Hp. lia. }
    destruct (node_at a c _ Hr Hle) as (n & En & Hn). rewrite En. cbn [bind].
    rewrite push_symbol_eq, Hs. unfold sym_out. rewrite (node_of_index _ _ _ En). reflexivity.
Qed.

Lemma print_ands : mapM (aag_and a) (ands a) = Ok (map aag_gate_line (g_ands (aag_of c))).
Proof.
  replace (ands a) with (numbers (c_inputs c + lenN (c_latches c) + 1) (lenN (c_ands c)))
    by (unfold represents in Hr; symmetry; tauto).
  apply mapM_nth.
  { cbn [aag_of g_ands]. rewrite numbers_length, !map_length, number_items_length. unfold lenN. lia. }
  intros i x y Hx Hy. cbn [aag_of g_ands] in Hy. rewrite nth_error_map, nth_error_map in Hy.
  destruct (nth_error (c_ands c) i) as [(r0, r1)|] eqn:Eg.
  2:{ apply nth_error_None in Eg. pose proof (nth_error_some_lt _ _ _ Hx) as X.
      rewrite numbers_length in X. unfold lenN in X. lia. }
  rewrite (number_items_nth _ _ _ Eg) in Hy. cbn [option_map fst snd] in Hy. injection Hy as <-.
  rewrite numbers_nth in Hx by (apply nth_error_some_lt in Eg; unfold lenN; lia). injection Hx as <-.
  assert (HG : gate c (gate_var c i) r0 r1) by (exists i; auto).
  replace (c_inputs c + lenN (c_latches c) + 1 + N.of_nat i) with (gate_var c i)
    by (unfold gate_var; lia).
  destruct (gate_node _ _ _ _ _ Hr Hwf Hfit HG) as (n & En & E1 & E2 & E3 & E4).
  unfold aag_and. rewrite En. cbn [bind]. rewrite E3. cbn [bind]. rewrite E4. cbn [bind]. rewrite E1.
  reflexivity.
Qed.

Lemma print_ok : get_aag_string a =
  Ok (end_with_newline (join [10] ((aag_lines c ++ sym_lines a c) ++ [comments a]))).
Proof.
  pose proof Hr as (M1 & M2 & M3 & M4 & M5 & M6 & M7 & M8 & M9 & _ & _ & _ & _ & _ & O1 & O2 & O3).
  pose proof Hwf as (_ & W2 & W3 & W4 & _).
  unfold get_aag_string. unfold aag_first_line. rewrite M1, M2, M3, M4, M5, M6, M7, M8, M9.
  change (0 + 0 =? 0) with true. cbn [assert_ bind]. change (bs " ") with [32].
  fold (words ([bs "aag"; dec (c_max c); dec (c_inputs c); dec (lenN (c_latches c));
          dec (lenN (c_outputs c)); dec (lenN (c_ands c))]
         ++ (if 0 <? lenN (c_bad c) + lenN (c_constraints c) then [dec (lenN (c_bad c))] else [])
         ++ (if 0 <? lenN (c_constraints c) then [dec (lenN (c_constraints c))] else []))).
  fold (aag_header c).
  rewrite print_inputs. cbn [bind]. rewrite print_latches. cbn [bind].
  rewrite O1, O2, O3.
  rewrite (print_literals (bs "o") node_output_symbol K_output) by (auto; reflexivity). cbn [bind].
  rewrite (print_literals (bs "b") node_bad_symbol K_bad) by (auto; reflexivity). cbn [bind].
  rewrite (print_literals (bs "c") node_constraint_symbol K_constraint) by (auto; reflexivity).
  cbn [bind]. rewrite print_ands. cbn [bind].
  f_equal. f_equal. f_equal. unfold aag_lines, sym_lines, all_kinds. cbn [flat_map app].
  rewrite app_nil_r, <- !app_assoc. reflexivity.
Qed.

End Print.

(* -------------------------------------------------------------------- reading *)

Lemma join_ended l x : join [10] (l ++ [x]) = ended l ++ x.
Proof.
  induction l as [|w l IH]; [reflexivity|]. unfold ended in *. cbn [map concat app].
  rewrite <- !app_assoc. cbn [app]. rewrite <- IH.
  destruct (l ++ [x]) as [|y l'] eqn:E; [destruct l; discriminate|]. reflexivity.
Qed.

(** What follows the lines: the comment, ended by a new line unless it is empty. *)
Definition closing (x : bytes) : bytes :=
  match x with [] => [] | _ => if last x 0 =? 10 then x else x ++ [10] end.

Lemma last_app_ne {A} (l1 l2 : list A) d : l2 <> [] -> last (l1 ++ l2) d = last l2 d.
Proof.
  intros H. destruct (exists_last H) as (l' & x & ->). rewrite app_assoc, !last_last. reflexivity.
Qed.

Lemma end_with_newline_ended l x : l <> [] -> end_with_newline (ended l ++ x) = ended l ++ closing x.
Proof.
  intros Hl. assert (Hne : ended l <> []).
  { destruct l as [|w l]; [contradiction|]. unfold ended. simpl. destruct w; discriminate. }
  assert (Hlast : last (ended l) 0 = 10).
  { destruct (exists_last Hl) as (l' & w & ->). rewrite ended_app. unfold ended at 2. simpl.
    rewrite app_nil_r, app_assoc, last_last. reflexivity. }
  unfold end_with_newline. destruct (ended l ++ x) as [|y r] eqn:E.
  { apply app_eq_nil in E. tauto. }
  rewrite <- E. destruct x as [|z x].
  - cbn [closing]. rewrite !app_nil_r, Hlast. reflexivity.
  - rewrite last_app_ne by discriminate. unfold closing. destruct (_ =? 10); auto.
    rewrite <- app_assoc. reflexivity.
Qed.

Lemma split_on_ended ws rest : (forall w, In w ws -> ~ In 10 w) ->
  split_on 10 (ended ws ++ rest) = ws ++ split_on 10 rest.
Proof.
  induction ws as [|w ws IH]; intros H; auto. unfold ended in *. cbn [map concat].
  rewrite <- !app_assoc. cbn [app]. rewrite split_on_app by (apply H; left; auto).
  rewrite IH by (intros; apply H; right; auto). reflexivity.
Qed.

Lemma read_section_map {A} (f : bytes -> option A) (g : A -> bytes) xs n rest :
  lenN xs = n -> (forall x, In x xs -> f (g x) = Some x) ->
  read_section f n (map g xs ++ rest) = Some (xs, rest).
Proof.
  intros Hn H. unfold read_section. rewrite lenN_app.
  assert (E : lenN (map g xs) = n) by (unfold lenN in *; rewrite map_length; auto).
  replace (lenN (map g xs) + lenN rest <? n) with false by lia.
  assert (L : N.to_nat n = (length (map g xs) + 0)%nat) by (rewrite map_length; unfold lenN in Hn; lia).
  rewrite L. rewrite firstn_app_2, skipn_app, Nat.add_0_r. cbn [firstn]. rewrite app_nil_r.
  rewrite skipn_all, Nat.sub_diag. cbn [app skipn].
  rewrite (read_all_map f g (fun x => x)) by auto. rewrite map_id. reflexivity.
Qed.

Lemma read_numbers_words ns : ns <> [] -> read_numbers (words (map dec ns)) = Some ns.
Proof.
  intros H. unfold read_numbers, words. rewrite words_of_join.
  - rewrite (read_all_map read_number dec (fun x => x)) by (intros; apply read_number_dec).
    rewrite map_id. reflexivity.
  - destruct ns; [contradiction|discriminate].
  - intros w Hw. apply in_map_iff in Hw. destruct Hw as (n & <- & _).
    split; [apply dec_no32|apply dec_nonempty].
Qed.

Lemma read_one_dec n : read_one (dec n) = Some n.
Proof.
  unfold read_one. change (dec n) with (words (map dec [n])).
  rewrite read_numbers_words by discriminate. reflexivity.
Qed.

Lemma read_latch_line e : read_latch (aag_latch_line e) = Some e.
Proof.
  destruct e as ((l, n), r). unfold read_latch, aag_latch_line. destruct (r =? 0) eqn:E; cbn [negb app].
  - change [dec l; dec n] with (map dec [l; n]). rewrite read_numbers_words by discriminate.
    apply N.eqb_eq in E. subst. reflexivity.
  - change [dec l; dec n; dec r] with (map dec [l; n; r]).
    rewrite read_numbers_words by discriminate. reflexivity.
Qed.

Lemma read_gate_line e : read_gate (aag_gate_line e) = Some e.
Proof.
  destruct e as ((l, n), r). unfold read_gate, aag_gate_line.
  change [dec l; dec n; dec r] with (map dec [l; n; r]).
  rewrite read_numbers_words by discriminate. reflexivity.
Qed.

Definition header_tail (c : circuit) : list N :=
  (if 0 <? lenN (c_bad c) + lenN (c_constraints c) then [lenN (c_bad c)] else [])
  ++ (if 0 <? lenN (c_constraints c) then [lenN (c_constraints c)] else []).

Lemma aag_header_words c : aag_header c = words (bs "aag" :: map dec
  ([c_max c; c_inputs c; lenN (c_latches c); lenN (c_outputs c); lenN (c_ands c)] ++ header_tail c)).
Proof.
  unfold aag_header, header_tail. f_equal. rewrite !map_app.
  destruct (0 <? lenN (c_bad c) + lenN (c_constraints c)), (0 <? lenN (c_constraints c)); reflexivity.
Qed.

Lemma read_header_ok c : read_header (aag_header c) =
  Some (c_max c, c_inputs c, lenN (c_latches c), lenN (c_outputs c), lenN (c_ands c),
        lenN (c_bad c), lenN (c_constraints c)).
Proof.
  rewrite aag_header_words. unfold read_header, words. rewrite words_of_join.
  2:{ discriminate. }
  2:{ intros w [<-|Hw]; [vm_compute; intuition discriminate|]. apply in_map_iff in Hw.
      destruct Hw as (n & <- & _). split; [apply dec_no32|apply dec_nonempty]. }
  change (list_eqb (bs "aag") (bs "aag")) with true. cbv iota.
  rewrite (read_all_map read_number dec (fun x => x)) by (intros; apply read_number_dec).
  rewrite map_id. unfold header_tail.
  destruct (0 <? lenN (c_bad c) + lenN (c_constraints c)) eqn:E1,
    (0 <? lenN (c_constraints c)) eqn:E2; cbn [app]; repeat f_equal; lia.
Qed.

Lemma aag_lines_no10 c w : In w (aag_lines c) -> ~ In 10 w.
Proof.
  assert (D : forall ns, ~ In 10 (words (map dec ns))).
  { intros ns. apply words_no10. intros v Hv. apply in_map_iff in Hv. destruct Hv as (n & <- & _).
    apply dec_no10. }
  unfold aag_lines. intros [<-|H].
  - rewrite aag_header_words. apply words_no10. intros v [<-|Hv]; [vm_compute; intuition discriminate|].
    apply in_map_iff in Hv. destruct Hv as (n & <- & _). apply dec_no10.
  - rewrite !in_app_iff, !in_map_iff in H.
    destruct H as [H|[H|[H|[H|[H|H]]]]]; destruct H as (x & <- & _); try apply dec_no10.
    + destruct x as ((l, n), r). unfold aag_latch_line. destruct (r =? 0); cbn [negb app].
      * apply (D [l; n]). * apply (D [l; n; r]).
    + destruct x as ((l, n), r). apply (D [l; n; r]).
Qed.

Ltac sec_len := cbn [aag_of g_inputs g_latches g_ands]; unfold lenN;
  rewrite map_length, ?numbers_length, ?number_items_length; lia.

Lemma read_aag_lines c rest :
  read_aag (ended (aag_lines c) ++ rest) = Some (aag_of c, split_on 10 rest).
Proof.
  unfold read_aag, lines_of. rewrite split_on_ended by apply aag_lines_no10.
  unfold aag_lines. cbn [app]. rewrite read_header_ok. rewrite <- !app_assoc.
  rewrite (read_section_map read_one dec (g_inputs (aag_of c)))
    by (intros; first [apply read_one_dec|reflexivity|sec_len]).
  rewrite (read_section_map read_latch aag_latch_line (g_latches (aag_of c)))
    by (intros; first [apply read_latch_line|reflexivity|sec_len]).
  rewrite (read_section_map read_one dec (c_outputs c)) by (intros; first [apply read_one_dec|reflexivity|sec_len]).
  rewrite (read_section_map read_one dec (c_bad c)) by (intros; first [apply read_one_dec|reflexivity|sec_len]).
  rewrite (read_section_map read_one dec (c_constraints c)) by (intros; first [apply read_one_dec|reflexivity|sec_len]).
  rewrite (read_section_map read_gate aag_gate_line (g_ands (aag_of c)))
    by (intros; first [apply read_gate_line|reflexivity|sec_len]).
  reflexivity.
Qed.

Lemma get_aag_text a c : represents a c -> circuit_wf c -> circuit_fits c ->
  get_aag_string a = Ok (ended (aag_lines c) ++ ended (sym_lines a c) ++ closing (comments a)).
Proof.
  intros Hr Hwf Hfit. rewrite (print_ok a c) by auto. rewrite join_ended, end_with_newline_ended.
  - rewrite ended_app, <- app_assoc. reflexivity.
  - unfold aag_lines. discriminate.
Qed.

(** C17. *)
Lemma export_ok a c : represents a c -> circuit_wf c -> circuit_fits c ->
  exists text rest, get_aag_string a = Ok text /\ read_aag text = Some (aag_of c, rest).
Proof.
  intros Hr Hwf Hfit. eexists. eexists. split; [apply get_aag_text; eauto|]. apply read_aag_lines.
Qed.

(* -------------------------------------------------------------------- symbols *)

Lemma read_kind_code k : read_kind (kind_code k) = Some k.
Proof. destruct k; reflexivity. Qed.

Lemma split_first_blank_app w r : ~ In 32 w -> split_first_blank (w ++ 32 :: r) = Some (w, r).
Proof.
  induction w as [|x w IH]; intros H; cbn [app split_first_blank].
  - reflexivity.
  - destruct (x =? 32) eqn:E. { apply N.eqb_eq in E. subst. simpl in H. tauto. }
    rewrite IH by (simpl in H; tauto). reflexivity.
Qed.

Lemma read_symbol_body s : read_symbol (symbol_body s) = Some s.
Proof.
  destruct s as ((k, p), name). rewrite symbol_body_eq. cbn [read_symbol].
  rewrite read_kind_code, split_first_blank_app by apply dec_no32.
  rewrite read_number_dec. reflexivity.
Qed.

Lemma read_symbols_app ss x rest : read_symbol x = None ->
  read_symbols (map symbol_body ss ++ x :: rest) = ss.
Proof.
  intros Hx. induction ss as [|s ss IH]; cbn [map app read_symbols].
  - rewrite Hx. reflexivity.
  - rewrite read_symbol_body, IH. reflexivity.
Qed.

(** The exported table. *)
Definition exported (a : AIG) (c : circuit) : list symbol :=
  flat_map (fun k => flat_map (fun p => named k p (sym_field k (node_of a (target c k p))))
                       (numbers 0 (kind_count c k))) all_kinds.

Lemma sym_lines_exported a c : sym_lines a c = map symbol_body (exported a c).
Proof.
  unfold sym_lines, exported, kind_lines.
  induction all_kinds as [|k ks IH]; [reflexivity|]. cbn [flat_map]. rewrite map_app, IH. f_equal.
  induction (numbers 0 (kind_count c k)) as [|p ps IHp]; [reflexivity|]. cbn [flat_map].
  rewrite map_app, <- IHp. reflexivity.
Qed.

Lemma in_exported a c k p name : In (k, p, name) (exported a c) <->
  p < kind_count c k /\ name <> [] /\ sym_field k (node_of a (target c k p)) = name.
Proof.
  unfold exported. rewrite in_flat_map. split.
  - intros (k' & _ & H). apply in_flat_map in H. destruct H as (p' & Hp & H).
    destruct (sym_field k' (node_of a (target c k' p'))) as [|x s] eqn:E; [destruct H|].
    destruct H as [H|[]]. injection H as -> -> <-. apply in_numbers in Hp.
    split; [lia|]. split; [discriminate|auto].
  - intros (Hp & Hne & E). exists k. split; [destruct k; simpl; auto 6|].
    apply in_flat_map. exists p. split; [apply in_numbers; lia|].
    rewrite E. destruct name; [contradiction|]. left; auto.
Qed.

Lemma last_name_in c syms k v : last_name c syms k v <> [] ->
  exists p, In (k, p, last_name c syms k v) syms /\ target c k p = v.
Proof.
  induction syms as [|s syms IH] using rev_ind; [contradiction|].
  destruct s as ((k', p'), name'). rewrite last_name_snoc.
  destruct (kind_eqb k k' && (target c k' p' =? v)) eqn:E.
  - intros _. apply andb_true_iff in E. destruct E as (E1 & E2). apply kind_eqb_spec in E1. subst k'.
    apply N.eqb_eq in E2. exists p'. split; auto. apply in_app_iff. right; left; auto.
  - intros H. destruct (IH H) as (p & H1 & H2). exists p. split; auto. apply in_app_iff. auto.
Qed.

Lemma last_name_unique c syms k p name : NoDup (map fst syms) ->
  (forall p' name', In (k, p', name') syms -> target c k p' = target c k p -> p' = p) ->
  In (k, p, name) syms -> last_name c syms k (target c k p) = name.
Proof.
  induction syms as [|s syms IH] using rev_ind; intros Hnd Hu Hin; [destruct Hin|].
  rewrite map_app in Hnd. destruct s as ((k', p'), name'). rewrite last_name_snoc.
  assert (Hnd' : NoDup (map fst syms) /\ ~ In (k', p') (map fst syms)).
  { apply NoDup_remove in Hnd. rewrite app_nil_r in Hnd. exact Hnd. }
  destruct Hnd' as (N1 & N2).
  destruct (kind_eqb k k' && (target c k' p' =? target c k p)) eqn:E.
  - apply andb_true_iff in E. destruct E as (E1 & E2). apply kind_eqb_spec in E1. subst k'.
    apply N.eqb_eq in E2. assert (p' = p).
    { apply (Hu p' name'); auto. apply in_app_iff. right; left; auto. }
    subst p'. apply in_app_iff in Hin. destruct Hin as [Hin|[Hin|[]]]; [|congruence].
    exfalso. apply N2. apply in_map_iff. exists (k, p, name). auto.
  - apply in_app_iff in Hin. destruct Hin as [Hin|[Hin|[]]].
    + apply IH; auto. intros p0 n0 H0. apply (Hu p0 n0). apply in_app_iff. auto.
    + injection Hin as -> -> ->. rewrite N.eqb_refl, andb_true_r in E.
      assert (X : kind_eqb k k = true) by (apply kind_eqb_spec; auto). congruence.
Qed.

Lemma closing_first x : x = [] \/ x = [99] \/ (exists t, x = 99 :: 10 :: t) ->
  exists w rest, split_on 10 (closing x) = w :: rest /\ read_symbol w = None.
Proof.
  intros [->|[->|(t & ->)]].
  - exists [], []. auto.
  - exists [99], [[]]. auto.
  - assert (E : exists t', closing (99 :: 10 :: t) = [99] ++ 10 :: t').
    { unfold closing. destruct (_ =? 10); eexists; reflexivity. }
    destruct E as (t' & ->). rewrite split_on_app by (simpl; intuition discriminate).
    exists [99], (split_on 10 t'). auto.
Qed.

Lemma file_fits_circuit c : file_fits c -> circuit_fits c.
Proof.
  intros (H & _). change (2 ^ 37) with 137438953472 in H. unfold circuit_fits. lia.
Qed.

(** C18, under the condition that no position with a symbol shares its variable. *)
Definition unshared (c : circuit) (syms : list symbol) : Prop :=
  forall k p name p', In (k, p, name) syms -> p' < kind_count c k ->
    target c k p' = target c k p -> p' = p.

Lemma symbols_survive st c syms o : circuit_wf c -> file_fits c -> Forall (symbol_ok c) syms ->
  comment_ok o -> NoDup (map fst syms) -> unshared c syms ->
  exists a text rest,
    from_vector_of_bytes (encode st c ++ symbol_text syms ++ comment_text o) = Ok a /\
    get_aag_string a = Ok text /\ read_aag text = Some (aag_of c, rest) /\
    forall s, In s (read_symbols rest) <-> In s syms.
Proof.
  intros Hwf Hf HS Ho Hnd Hu.
  destruct (parse_encode st c syms o Hwf Hf HS Ho) as (a & Ea & Hr & HI & Hc).
  exists a, (ended (aag_lines c) ++ ended (sym_lines a c) ++ closing (comments a)).
  eexists. split; auto. split; [apply get_aag_text; auto; apply file_fits_circuit; auto|]. split; [apply read_aag_lines|].
  rewrite Forall_forall in HS.
  assert (Name : forall k p, p < kind_count c k ->
            sym_field k (node_of a (target c k p)) = last_name c syms k (target c k p)).
  { intros k p Hp. assert (Hle : target c k p <= c_max c).
    { unfold target. assert (Hin : In (nth (N.to_nat p) (kind_list c k) 0) (kind_list c k)).
      { apply nth_In. rewrite kind_list_length. lia. }
      revert Hin. generalize (nth (N.to_nat p) (kind_list c k) 0). intros t Hin.
      destruct Hwf as (_ & W2 & W3 & W4 & _). rewrite Forall_forall in W2, W3, W4.
      destruct k; cbn [kind_list] in Hin; try (apply in_numbers in Hin; unfold c_max; lia);
        apply in_map_iff in Hin; destruct Hin as (l & <- & Hl); [apply W2|apply W3|apply W4]; auto. }
    destruct (node_at a c _ Hr Hle) as (n & En & _). rewrite (node_of_index _ _ _ En).
    apply index_ok in En. rewrite (HI k _ _ En), N2Nat.id. reflexivity. }
  assert (Ex : forall s, In s (exported a c) <-> In s syms).
  { intros ((k, p), name). rewrite in_exported. split.
    - intros (Hp & Hne & E). rewrite Name in E by auto. subst name.
      destruct (last_name_in c syms k _ Hne) as (p' & H1 & H2).
      assert (p = p') by (apply (Hu k p' _ p H1 Hp); auto). subst p'. exact H1.
    - intros Hin. pose proof (HS _ Hin) as (Hp & Hok). apply name_facts in Hok.
      split; auto. split; [tauto|]. rewrite Name by auto. apply last_name_unique; auto.
      intros p' name' H1 H2. eapply Hu; eauto. apply (HS _ H1). }
  destruct (closing_first _ Hc) as (w & rest & E1 & E2).
  intros s. rewrite split_on_ended.
  - rewrite sym_lines_exported, E1, read_symbols_app by auto. apply Ex.
  - intros x Hx. rewrite sym_lines_exported in Hx. apply in_map_iff in Hx.
    destruct Hx as (s' & <- & Hs'). apply Ex in Hs'. eapply symbol_body_no10; eauto.
Qed.
