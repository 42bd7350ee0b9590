(** Final forms of the AIG and AIGER theorems, and the concrete cases. *)
From Verif Require Import Base Aig AigParse AigPrint Spec SpecAig SpecText SpecAiger Tac TextFacts
  AigFacts SimFacts ParseFacts EncodeFacts SymbolFacts PrintFacts.
Open Scope N_scope.
Import String.StringSyntax.
Arguments bs s%string_scope.

(* ----------------------------------------------------- deciding well-formedness *)

Definition circuit_wfb (c : circuit) : bool :=
  forallb (fun e => (lit_var (fst (snd e)) <=? c_max c) &&
                    ((snd (snd e) =? 0) || (snd (snd e) =? 1) ||
                     (snd (snd e) =? 2 * latch_var c (fst e)))) (number_items (c_latches c)) &&
  forallb (fun l => lit_var l <=? c_max c) (c_outputs c ++ c_bad c ++ c_constraints c) &&
  forallb (fun e => (snd (snd e) <=? fst (snd e)) && (fst (snd e) <? 2 * gate_var c (fst e)))
    (number_items (c_ands c)).

Lemma circuit_wfb_ok c : circuit_wfb c = true -> circuit_wf c.
Proof.
  unfold circuit_wfb. rewrite !andb_true_iff, !forallb_forall. intros ((H1 & H2) & H3).
  assert (F : forall l, In l (c_outputs c ++ c_bad c ++ c_constraints c) -> lit_in_range c l).
  { intros l Hl. apply H2 in Hl. unfold lit_in_range. lia. }
  assert (I : forall A (l : list A) j x, nth_error l j = Some x -> In (j, x) (number_items l)).
  { intros A l j x Hx. eapply nth_error_In. apply number_items_nth. eauto. }
  split; [|split; [|split; [|split]]].
  - intros v nx r (j & Hj & ->). specialize (H1 _ (I _ _ _ _ Hj)). cbn [fst snd] in H1.
    unfold lit_in_range. rewrite andb_true_iff, !orb_true_iff, !N.eqb_eq, N.leb_le in H1. intuition.
  - apply Forall_forall. intros l Hl. apply F. rewrite !in_app_iff. auto.
  - apply Forall_forall. intros l Hl. apply F. rewrite !in_app_iff. auto.
  - apply Forall_forall. intros l Hl. apply F. rewrite !in_app_iff. auto.
  - intros v r0 r1 (j & Hj & ->). specialize (H3 _ (I _ _ _ _ Hj)). cbn [fst snd] in H3. lia.
Qed.

(* ------------------------------------------------------------- the graph's circuit *)

Lemma represents_latches_le a c c' : represents a c -> represents a c' ->
  c_inputs c = c_inputs c' -> forall j x, nth_error (c_latches c) j = Some x ->
  nth_error (c_latches c') j = Some x.
Proof.
  intros Hr Hr' Ei j (nx, r) Hj.
  assert (L : latch c (latch_var c j) nx r) by (exists j; auto).
  assert (Hlt : (j < length (c_latches c'))%nat).
  { pose proof (nth_error_some_lt _ _ _ Hj).
    assert (lenN (c_latches c) = lenN (c_latches c'))
      by (unfold represents in Hr, Hr'; destruct Hr as (_ & _ & E & _); destruct Hr' as (_ & _ & E' & _); congruence).
    unfold lenN in *. lia. }
  destruct (nth_error (c_latches c') j) as [(nx', r')|] eqn:Ej; [|apply nth_error_None in Ej; lia].
  assert (L' : latch c' (latch_var c j) nx' r') by (exists j; split; auto; unfold latch_var; congruence).
  destruct (node_at a c (latch_var c j) Hr) as (n & En & Hn). { apply latch_le_max. exists nx, r; auto. }
  destruct (node_at a c' (latch_var c j) Hr') as (n' & En' & Hn'). { apply latch_le_max. exists nx', r'; auto. }
  assert (n' = n) by congruence. subst n'.
  apply (node_is_latch _ _ _ _ _ Hn) in L. apply (node_is_latch _ _ _ _ _ Hn') in L'.
  destruct L as (_ & _ & <- & <-), L' as (_ & _ & <- & <-). reflexivity.
Qed.

Lemma represents_ands_le a c c' : represents a c -> represents a c' ->
  c_inputs c = c_inputs c' -> forall j x, nth_error (c_ands c) j = Some x ->
  nth_error (c_ands c') j = Some x.
Proof.
  intros Hr Hr' Ei j (r0, r1) Hj.
  assert (L : gate c (gate_var c j) r0 r1) by (exists j; auto).
  assert (El : lenN (c_latches c) = lenN (c_latches c') /\ lenN (c_ands c) = lenN (c_ands c')).
  { unfold represents in Hr, Hr'. destruct Hr as (_ & _ & E & F & _).
    destruct Hr' as (_ & _ & E' & F' & _). split; congruence. }
  pose proof (nth_error_some_lt _ _ _ Hj).
  destruct (nth_error (c_ands c') j) as [(s0, s1)|] eqn:Ej;
    [|apply nth_error_None in Ej; unfold lenN in El; lia].
  assert (L' : gate c' (gate_var c j) s0 s1).
  { exists j; split; auto. unfold gate_var. destruct El. congruence. }
  destruct (node_at a c (gate_var c j) Hr) as (n & En & Hn). { apply gate_le_max. exists r0, r1; auto. }
  destruct (node_at a c' (gate_var c j) Hr') as (n' & En' & Hn'). { apply gate_le_max. exists s0, s1; auto. }
  assert (n' = n) by congruence. subst n'.
  apply (node_is_gate _ _ _ _ _ Hn) in L. apply (node_is_gate _ _ _ _ _ Hn') in L'.
  destruct L as (_ & _ & <- & <-), L' as (_ & _ & <- & <-). reflexivity.
Qed.

Lemma nth_error_ext {A} : forall l l' : list A,
  (forall j x, nth_error l j = Some x -> nth_error l' j = Some x) ->
  (forall j x, nth_error l' j = Some x -> nth_error l j = Some x) -> l = l'.
Proof.
  induction l as [|x l IH]; intros [|y l'] H1 H2; auto.
  - specialize (H2 0%nat y eq_refl). discriminate.
  - specialize (H1 0%nat x eq_refl). discriminate.
  - pose proof (H1 0%nat x eq_refl) as E. simpl in E. injection E as ->. f_equal. apply IH.
    + intros j z Hj. exact (H1 (S j) z Hj).
    + intros j z Hj. exact (H2 (S j) z Hj).
Qed.

Lemma represents_unique a c c' : represents a c -> represents a c' -> c = c'.
Proof.
  intros Hr Hr'.
  assert (Ei : c_inputs c = c_inputs c').
  { unfold represents in Hr, Hr'. destruct Hr as (_ & E & _), Hr' as (_ & E' & _). congruence. }
  assert (El : c_latches c = c_latches c').
  { apply nth_error_ext; eapply represents_latches_le; eauto. }
  assert (Ea : c_ands c = c_ands c').
  { apply nth_error_ext; eapply represents_ands_le; eauto. }
  unfold represents in Hr, Hr'.
  destruct Hr as (_ & _ & _ & _ & _ & _ & _ & _ & _ & _ & _ & _ & _ & _ & O1 & O2 & O3).
  destruct Hr' as (_ & _ & _ & _ & _ & _ & _ & _ & _ & _ & _ & _ & _ & _ & O1' & O2' & O3').
  destruct c, c'; simpl in *. congruence.
Qed.

(* ----------------------------------------------------------------- theorems *)

(** What the getters of a graph say about a circuit. *)
Definition getters_return (a : AIG) (c : circuit) : Prop :=
  get_highest_variable_number a = c_max c /\
  get_input_information a = Ok (g_inputs (aag_of c)) /\
  get_latch_information a = Ok (g_latches (aag_of c)) /\
  get_output_information a = c_outputs c /\
  get_bad_information a = c_bad c /\
  get_constraints_information a = c_constraints c /\
  forall order, order_ok order -> exists gs,
    cone_of_influence order a (map (fun g => fst (fst g)) (g_ands (aag_of c))) = Ok gs /\
    NoDup gs /\ forall g, In g gs <-> In g (g_ands (aag_of c)).

Lemma in_g_ands c lhs r0 r1 : In (lhs, r0, r1) (g_ands (aag_of c)) <->
  exists v, lhs = 2 * v /\ gate c v r0 r1.
Proof.
  cbn [aag_of g_ands]. rewrite in_map_iff. split.
  - intros ((j, (s0, s1)) & E & H). cbn [fst snd] in E. injection E as <- <- <-.
    apply In_nth_error in H. destruct H as (i & Hi).
    pose proof (nth_error_some_lt _ _ _ Hi) as Hlt. rewrite number_items_length in Hlt.
    destruct (nth_error (c_ands c) i) as [x|] eqn:Ex; [|apply nth_error_None in Ex; lia].
    rewrite (number_items_nth _ _ _ Ex) in Hi. injection Hi as -> ->.
    exists (gate_var c j). split; auto. exists j. auto.
  - intros (v & -> & (j & Hj & ->)). exists (j, (r0, r1)). split; auto.
    eapply nth_error_In. apply number_items_nth. auto.
Qed.

Lemma represents_getters a c : represents a c -> circuit_wf c -> circuit_fits c ->
  getters_return a c.
Proof.
  intros Hr Hwf Hf.
  split; [unfold represents, get_highest_variable_number in *; tauto|].
  split; [rewrite (get_input_information_ok a c) by auto; reflexivity|].
  split; [rewrite (get_latch_information_ok a c) by auto; reflexivity|].
  split; [unfold represents, get_output_information in *; tauto|].
  split; [unfold represents, get_bad_information in *; tauto|].
  split; [unfold represents, get_constraints_information in *; tauto|].
  intros order Ho.
  destruct (cone_ok a c order (map (fun g => fst (fst g)) (g_ands (aag_of c))) Hr Hwf Hf Ho)
    as (gs & E & Hnd & HI).
  { apply Forall_forall. intros l Hl. apply in_map_iff in Hl. destruct Hl as (((lhs, r0), r1) & <- & Hg).
    apply in_g_ands in Hg. destruct Hg as (v & -> & G). cbn [fst]. unfold lit_in_range, lit_var.
    pose proof (gate_range _ _ _ _ G). lia. }
  exists gs. split; auto. split; auto. intros ((lhs, r0), r1). rewrite HI, in_g_ands. split.
  - intros (v & -> & G & _). eauto.
  - intros (v & -> & G). exists v. split; auto. split; auto.
    replace v with (lit_var (2 * v)) by (unfold lit_var; lia). apply fan_in_root.
    + apply in_map_iff. exists (2 * v, r0, r1). split; auto. apply in_g_ands. eauto.
    + replace (lit_var (2 * v)) with v by (unfold lit_var; lia). exists r0, r1. auto.
Qed.

Lemma parse_inverts_encode st c syms o : circuit_wf c -> file_fits c ->
  Forall (symbol_ok c) syms -> comment_ok o ->
  exists a, from_vector_of_bytes (encode st c ++ symbol_text syms ++ comment_text o) = Ok a /\
    represents a c /\ getters_return a c.
Proof.
  intros Hwf Hf HS Ho. destruct (parse_encode st c syms o Hwf Hf HS Ho) as (a & E & Hr & _).
  exists a. split; auto. split; auto. apply represents_getters; auto. apply file_fits_circuit; auto.
Qed.

Lemma accepted_well_formed data a : from_vector_of_bytes data = Ok a ->
  exists c, represents a c /\ circuit_wf c /\ circuit_fits c /\
    forall c', represents a c' -> c' = c.
Proof.
  intros H. destruct (accepted_ok _ _ H) as (c & H1 & H2 & H3). exists c. split; auto. split; auto.
  split; auto. intros c' H'. eapply represents_unique; eauto.
Qed.

Lemma accepted_export data a : from_vector_of_bytes data = Ok a ->
  exists c text rest, represents a c /\ get_aag_string a = Ok text /\
    read_aag text = Some (aag_of c, rest).
Proof.
  intros H. destruct (accepted_ok _ _ H) as (c & H1 & H2 & H3).
  destruct (export_ok a c H1 H2 H3) as (text & rest & E). exists c, text, rest. tauto.
Qed.

Lemma simulate_full a c : represents a c -> circuit_wf c -> circuit_fits c ->
  forall ins init r, Forall (fun m => NoDup (keys m)) ins -> NoDup (keys init) ->
  simulate a ins init = Ok r ->
  length r = length ins /\
  Forall (fun vec => lenN vec = c_max c + 1) r /\
  sim_trace c ins init (fun t v => if v <=? c_max c then nth (N.to_nat v) (nth t r []) false else false) /\
  forall w, sim_trace c ins init w ->
    forall t v, (t < length ins)%nat -> v <= c_max c -> w t v = nth (N.to_nat v) (nth t r []) false.
Proof.
  intros Hr Hwf Hf ins init r Hk Hi H.
  pose proof (simulate_correct a c Hr Hwf Hf ins init r Hk Hi H) as (H1 & H2 & H3).
  split; auto. split; auto.
  assert (E : forall t v, read_value r t v = nth (N.to_nat v) (nth t r []) false) by reflexivity.
  split; [exact H3|].
  intros w Hw t v Ht Hv. rewrite <- E.
  pose proof (sim_trace_unique c Hwf ins init w _ Hk Hi Hw H3 t v Ht Hv) as X.
  cbv beta in X. rewrite X. replace (v <=? c_max c) with true by lia. reflexivity.
Qed.

Lemma nodup_incl_len (l l' : list N) : NoDup l -> (forall x, In x l -> In x l') -> lenN l <= lenN l'.
Proof. intros H1 H2. pose proof (NoDup_incl_length H1 H2). unfold lenN. lia. Qed.

Lemma numbers_nodup f k : NoDup (numbers f k).
Proof.
  unfold numbers. apply FinFun.Injective_map_NoDup; [|apply seq_NoDup]. intros x y H. lia.
Qed.

Lemma simulate_total a c : represents a c -> circuit_wf c -> circuit_fits c ->
  forall ins init, complete_stimulus c ins init ->
  (forall nx, latch c 1 nx 1 -> In 1 (keys init)) ->
  exists r, simulate a ins init = Ok r.
Proof.
  intros Hr Hwf Hf ins init (H1 & H2 & H3 & H4 & H5) H6.
  assert (LN : forall f k, lenN (numbers f k) = k) by (intros; unfold lenN; rewrite numbers_length; lia).
  apply (simulate_spec a c Hr Hwf Hf). split; auto. split; [|split; [|split]].
  - apply Forall_forall. intros m Hm. destruct (H2 m Hm) as (N1 & N2). split.
    + assert (L : lenN m = lenN (keys m)) by (unfold lenN, keys; rewrite map_length; auto). rewrite L.
      pose proof (nodup_incl_len (keys m) (numbers 1 (c_inputs c)) N1) as A.
      pose proof (nodup_incl_len (numbers 1 (c_inputs c)) (keys m) (numbers_nodup _ _)) as B.
      rewrite LN in A, B.
      assert (lenN (keys m) <= c_inputs c).
      { apply A. intros x Hx. apply N2 in Hx. apply in_numbers. unfold is_input in Hx. lia. }
      assert (c_inputs c <= lenN (keys m)).
      { apply B. intros x Hx. apply in_numbers in Hx. apply N2. unfold is_input. lia. }
      lia.
    + intros v Hv. apply N2. auto.
  - assert (L : lenN init = lenN (keys init)) by (unfold lenN, keys; rewrite map_length; auto). rewrite L.
    pose proof (nodup_incl_len (keys init) (numbers (c_inputs c + 1) (lenN (c_latches c))) H3) as A.
    rewrite LN in A. apply A. intros x Hx. apply H4, is_latch_iff in Hx. apply in_numbers. lia.
  - intros v nx r L E. subst r. destruct Hwf as (W & _). pose proof (W _ _ _ L) as (_ & Hreset).
    assert (1 <= v). { pose proof (latch_range _ _ _ _ L). lia. }
    assert (v = 1) by lia. subst v. eauto.
  - intros v nx r L E. eauto.
Qed.

(** The stimuli that [simulate] accepts, exactly. *)
Lemma simulate_exact a c : represents a c -> circuit_wf c -> circuit_fits c ->
  forall ins init, (forall m, In m ins -> NoDup (keys m)) ->
  (exists r, simulate a ins init = Ok r) <->
  ins <> [] /\ (forall m, In m ins -> forall v, In v (keys m) <-> is_input c v) /\
  lenN init <= lenN (c_latches c) /\
  (forall v next reset, latch c v next reset -> reset = 2 * v -> In v (keys init)) /\
  (forall next, latch c 1 next 1 -> In 1 (keys init)).
Proof.
  intros Hr Hwf Hf ins init Hnd.
  assert (LN : forall f k, lenN (numbers f k) = k) by (intros; unfold lenN; rewrite numbers_length; lia).
  assert (LK : forall m : BoolMap, lenN m = lenN (keys m)) by (intros; unfold lenN, keys; rewrite map_length; auto).
  rewrite (simulate_spec a c Hr Hwf Hf). split.
  - intros (H1 & H2 & H3 & H4 & H5). split; auto. split; [|split; [auto|split; [auto|]]].
    + intros m Hm. rewrite Forall_forall in H2. destruct (H2 m Hm) as (L & C). intros v. split; [|apply C].
      intros Hv. assert (I : incl (keys m) (numbers 1 (c_inputs c))).
      { apply NoDup_length_incl.
        - apply numbers_nodup.
        - rewrite LK in L. unfold lenN in L. rewrite numbers_length. lia.
        - intros x Hx. apply in_numbers in Hx. apply C. unfold is_input. lia. }
      apply I, in_numbers in Hv. unfold is_input. lia.
    + intros nx L. apply (H4 _ _ _ L). reflexivity.
  - intros (H1 & H2 & H3 & H4 & H5). split; auto. split; [|split; [auto|split; [|auto]]].
    + apply Forall_forall. intros m Hm. split; [|intros v Hv; apply (H2 m Hm); auto].
      rewrite LK. pose proof (nodup_incl_len (keys m) (numbers 1 (c_inputs c)) (Hnd m Hm)) as A.
      pose proof (nodup_incl_len (numbers 1 (c_inputs c)) (keys m) (numbers_nodup _ _)) as B.
      rewrite LN in A, B.
      assert (lenN (keys m) <= c_inputs c).
      { apply A. intros x Hx. apply (H2 m Hm) in Hx. apply in_numbers. unfold is_input in Hx. lia. }
      assert (c_inputs c <= lenN (keys m)).
      { apply B. intros x Hx. apply in_numbers in Hx. apply (H2 m Hm). unfold is_input. lia. }
      lia.
    + intros v nx r L E. subst r. destruct Hwf as (W & _). pose proof (W _ _ _ L) as (_ & Hreset).
      assert (1 <= v). { pose proof (latch_range _ _ _ _ L). lia. }
      assert (v = 1) by lia. subst v. eauto.
Qed.

Lemma header_too_long numbers_ rest : length numbers_ = 9%nat ->
  from_vector_of_bytes (line (bs "aig" :: map dec numbers_) ++ rest) = Panic.
Proof.
  intros Hl. rewrite parse_eq. unfold parse_circuit. cbv zeta.
  assert (N10 : ~ In 10 (words (bs "aig" :: map dec numbers_))).
  { apply words_no10. intros v [<-|Hv]; [vm_compute; intuition discriminate|].
    apply in_map_iff in Hv. destruct Hv as (n & <- & _). apply dec_no10. }
  unfold line. rewrite <- app_assoc. cbn [app]. rewrite split_lines_cons by auto. cbn [app].
  assert (C : forall r, check_first_line (words (bs "aig" :: map dec numbers_) :: r) = Panic).
  { intros r. unfold check_first_line.
    change (index (words (bs "aig" :: map dec numbers_) :: r) 0)
      with (Ok (words (bs "aig" :: map dec numbers_))).
    cbn [bind]. rewrite from_utf8_ascii.
    2:{ apply join_ascii. constructor; [vm_compute; repeat constructor|].
        apply Forall_map. apply Forall_forall. intros. apply dec_lt128. }
    cbn [bind]. unfold words. rewrite split_spaces_words.
    2:{ discriminate. }
    2:{ intros w [<-|Hw]; [vm_compute; intuition discriminate|].
        apply in_map_iff in Hw. destruct Hw as (n & <- & _). apply dec_no32. }
    cbn [indexn nth_error unwrap bind]. change (list_eqb (bs "aig") [97; 105; 103]) with true.
    cbn [assert_ bind length]. rewrite map_length, Hl. reflexivity. }
  rewrite C. reflexivity.
Qed.

(* ------------------------------------------------------------ concrete cases *)

(** One input, latches with reset 0, 1 and uninitialised, two gates, one output, two bad
    literals, one constraint. *)
Definition ex_circuit : circuit :=
  mkCircuit 1 [(10, 0); (3, 1); (12, 8)] [13] [10; 4] [2] [(8, 3); (10, 6)].
Definition ex_style : style := mkStyle 3 (fun j => Nat.eqb j 0).
Definition ex_symbols : list symbol :=
  [(K_input, 0, bs "clk"); (K_latch, 2, [195; 169]); (K_bad, 1, bs "b_one"); (K_output, 0, bs "out")].
Definition ex_comment : option bytes := Some (bs "made by hand" ++ [10]).

Lemma ex_wf : circuit_wf ex_circuit.
Proof. apply circuit_wfb_ok. vm_compute. reflexivity. Qed.
Lemma ex_fits : file_fits ex_circuit.
Proof. vm_compute. repeat split. Qed.
Lemma ex_symbols_ok : Forall (symbol_ok ex_circuit) ex_symbols.
Proof.
  assert (A : forall l, l <> [] -> forallb (fun x => (x <? 128) && negb (x =? 10) && negb (x =? 32)) l = true ->
                name_ok l).
  { intros l Hne H. rewrite forallb_forall in H. exists l. split.
    - clear Hne. induction l as [|x l IH]; auto. unfold utf8. cbn [map concat].
      pose proof (H x (or_introl eq_refl)). unfold utf8_char at 1. replace (x <? 128) with true by lia.
      cbn [app]. f_equal. apply IH. intros y Hy. apply H. right; auto.
    - split; auto. apply Forall_forall. intros x Hx. apply H in Hx. unfold scalar. lia. }
  unfold ex_symbols. repeat (apply Forall_cons; [split; [reflexivity|]|]); try apply Forall_nil;
    try (apply A; [discriminate|vm_compute; reflexivity]).
  exists [233]. split; [reflexivity|]. split; [discriminate|]. repeat constructor; unfold scalar; try lia.
Qed.
Lemma ex_comment_ok : comment_ok ex_comment.
Proof.
  exists (bs "made by hand" ++ [10]). split; [reflexivity|].
  apply Forall_forall. intros x Hx. vm_compute in Hx. unfold scalar.
  repeat (destruct Hx as [<-|Hx]; [lia|]). destruct Hx.
Qed.
Lemma ex_unshared : NoDup (map fst ex_symbols) /\ unshared ex_circuit ex_symbols.
Proof.
  split.
  - repeat constructor; simpl; intuition discriminate.
  - intros k p name p' H Hp E. simpl in H.
    decompose [or] H; clear H; try contradiction;
      match goal with X : _ = (k, p, name) |- _ => injection X as <- <- <- end;
      cbn [kind_count ex_circuit c_inputs c_latches c_outputs c_bad] in Hp; unfold lenN in Hp;
      cbn [length] in Hp; try lia.
    + assert (p' = 0 \/ p' = 1 \/ p' = 2) by lia. destruct H as [->|[->| ->]]; auto; discriminate E.
    + assert (p' = 0 \/ p' = 1) by lia. destruct H as [->| ->]; auto; discriminate E.
Qed.

(** Reads the example file. *)
Definition ex_graph : res AIG :=
  from_vector_of_bytes (encode ex_style ex_circuit ++ symbol_text ex_symbols ++ comment_text ex_comment).

(** Two outputs on the same variable. *)
Definition shared_circuit : circuit := mkCircuit 1 [] [2; 2] [] [] [].
Definition shared_symbols : list symbol := [(K_output, 0, bs "x"); (K_output, 1, bs "y")].

(** No inputs; the only latch is variable 1 with reset 1. *)
Definition reset_one_circuit : circuit := mkCircuit 0 [(2, 1)] [] [2] [] [].

Lemma shared_ok : circuit_wf shared_circuit /\ file_fits shared_circuit /\
  Forall (symbol_ok shared_circuit) shared_symbols.
Proof.
  split; [apply circuit_wfb_ok; vm_compute; reflexivity|]. split; [vm_compute; repeat split|].
  unfold shared_symbols. repeat (apply Forall_cons; [split; [reflexivity|]|]); try apply Forall_nil.
  - exists [120]. split; [reflexivity|]. split; [discriminate|]. repeat constructor; unfold scalar; lia.
  - exists [121]. split; [reflexivity|]. split; [discriminate|]. repeat constructor; unfold scalar; lia.
Qed.

Lemma symbols_shared :
  exists c syms a text g rest, circuit_wf c /\ file_fits c /\ Forall (symbol_ok c) syms /\
    NoDup (map fst syms) /\
    from_vector_of_bytes (encode ex_style c ++ symbol_text syms) = Ok a /\
    get_aag_string a = Ok text /\ read_aag text = Some (g, rest) /\
    In (K_output, 0, bs "x") syms /\ ~ In (K_output, 0, bs "x") (read_symbols rest) /\
    In (K_output, 0, bs "y") (read_symbols rest).
Proof.
  exists shared_circuit, shared_symbols. do 4 eexists.
  destruct shared_ok as (H1 & H2 & H3). split; [exact H1|]. split; [exact H2|]. split; [exact H3|].
  split; [repeat constructor; simpl; intuition discriminate|].
  split; [vm_compute; reflexivity|]. split; [vm_compute; reflexivity|].
  split; [vm_compute; reflexivity|]. split; [left; reflexivity|].
  split; vm_compute; intuition discriminate.
Qed.

Lemma ex_represents : exists a, ex_graph = Ok a /\ represents a ex_circuit.
Proof.
  destruct (parse_inverts_encode ex_style ex_circuit ex_symbols ex_comment ex_wf ex_fits
              ex_symbols_ok ex_comment_ok) as (a & E & Hr & _). exists a. auto.
Qed.

Lemma ex_cone :
  exists a, ex_graph = Ok a /\ represents a ex_circuit /\ circuit_fits ex_circuit /\
    cone_of_influence (fun l => l) a [11] = Ok [(10, 8, 3)] /\
    cone_of_influence (fun l => l) a [4; 13] = Ok [(12, 10, 6); (10, 8, 3)].
Proof.
  destruct ex_represents as (a & E & Hr). exists a. split; auto. split; auto.
  split; [apply file_fits_circuit, ex_fits|].
  vm_compute in E. injection E as <-. split; vm_compute; reflexivity.
Qed.

Lemma ex_simulation :
  exists a, ex_graph = Ok a /\ represents a ex_circuit /\
    simulate a [[(1, false)]; [(1, true)]] [(4, true)] =
      Ok [[false; false; false; true; true; true; true];
          [false; true; true; true; true; false; false]].
Proof.
  destruct ex_represents as (a & E & Hr). exists a. split; auto. split; auto.
  vm_compute in E. injection E as <-. vm_compute. reflexivity.
Qed.

Lemma ex_complete : complete_stimulus ex_circuit [[(1, false)]; [(1, true)]] [(4, true)].
Proof.
  split; [discriminate|]. split; [|split; [|split]].
  - intros m [<-|[<-|[]]]; (split; [repeat constructor; simpl; tauto|]); intros v;
      unfold is_input; cbn [keys map fst ex_circuit c_inputs In]; split; intros H; try lia; left; lia.
  - repeat constructor; simpl; tauto.
  - intros v [<-|[]]. apply is_latch_iff. vm_compute. split; congruence.
  - intros v nx r (j & Hj & ->) Hr.
    destruct j as [|[|[|j]]]; cbn [ex_circuit c_latches nth_error] in Hj; try discriminate;
      try (injection Hj as <- <-; vm_compute in Hr; discriminate).
    + left. reflexivity.
    + destruct j; discriminate.
Qed.

Lemma ex_stimulus :
  exists a, ex_graph = Ok a /\ represents a ex_circuit /\
    complete_stimulus ex_circuit [[(1, false)]; [(1, true)]] [(4, true)] /\
    (forall nx, latch ex_circuit 1 nx 1 -> In 1 (keys [(4, true)])).
Proof.
  destruct ex_represents as (a & E & Hr). exists a. split; auto. split; auto.
  split; [exact ex_complete|].
  intros nx L. apply latch_range in L. cbn [ex_circuit c_inputs] in L. lia.
Qed.

Lemma reset_one_ok : circuit_wf reset_one_circuit /\ file_fits reset_one_circuit.
Proof. split; [apply circuit_wfb_ok; vm_compute; reflexivity|]. vm_compute. repeat split. Qed.

Lemma simulate_not_total :
  exists c a ins init, circuit_wf c /\ circuit_fits c /\ represents a c /\
    complete_stimulus c ins init /\ simulate a ins init = Panic.
Proof.
  destruct reset_one_ok as (H1 & H2).
  destruct (parse_inverts_encode ex_style reset_one_circuit [] None H1 H2 (Forall_nil _) I)
    as (a & E & Hr & _).
  exists reset_one_circuit, a, [[]], []. split; auto. split; [apply file_fits_circuit; auto|].
  split; auto. split.
  - split; [discriminate|]. split; [|split; [|split]].
    + intros m [<-|[]]. split; [constructor|]. intros v.
      unfold is_input. cbn [keys map reset_one_circuit c_inputs In]. lia.
    + constructor.
    + intros v [].
    + intros v nx r (j & Hj & ->) Hr'. destruct j as [|j]; cbn in Hj.
      * injection Hj as <- <-. discriminate.
      * destruct j; discriminate.
  - vm_compute in E. injection E as <-. vm_compute. reflexivity.
Qed.

Lemma full_header_rejected :
  exists c rest, circuit_wf c /\ file_fits c /\
    (exists a, from_vector_of_bytes (encode ex_style c ++ rest) = Ok a) /\
    from_vector_of_bytes
      (line (bs "aig" :: map dec [c_max c; c_inputs c; lenN (c_latches c); lenN (c_outputs c);
                                  lenN (c_ands c); lenN (c_bad c); lenN (c_constraints c); 0; 0])
       ++ skipn (length (line (bs "aig" :: map dec (header_numbers ex_style c))))
            (encode ex_style c) ++ rest) = Panic.
Proof.
  exists ex_circuit, []. split; [exact ex_wf|]. split; [exact ex_fits|].
  split; [eexists; vm_compute; reflexivity|]. vm_compute. reflexivity.
Qed.

Lemma shorter_headers fields c : circuit_wf c -> file_fits c ->
  exists a, from_vector_of_bytes (encode (mkStyle fields (fun _ => true)) c) = Ok a /\
    represents a c.
Proof.
  intros H1 H2. destruct (parse_inverts_encode (mkStyle fields (fun _ => true)) c [] None H1 H2
    (Forall_nil _) I) as (a & E & Hr & _).
  exists a. cbn [symbol_text map concat comment_text app] in E. rewrite app_nil_r in E. auto.
Qed.
