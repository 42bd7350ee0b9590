(** Symbol tables and comments: reading them succeeds and records the names. *)
From Verif Require Import Base Aig AigParse Spec SpecAig SpecText SpecAiger Tac TextFacts AigFacts
  SimFacts ParseFacts EncodeFacts.
Open Scope N_scope.
Import String.StringSyntax.
Arguments bs s%string_scope.

(* ----------------------------------------------------------------------- UTF-8 *)

Lemma utf8_valid_char x l : scalar x -> utf8_valid (utf8_char x ++ l) = utf8_valid l.
Proof.
  intros H. unfold utf8_char, scalar in *.
  destruct (x <? 128) eqn:E1. { cbn [app utf8_valid]. rewrite E1. reflexivity. }
  destruct (x <? 2048) eqn:E2.
  { cbn [app utf8_valid]. unfold in_range. replace (192 + x / 64 <? 128) with false by lia.
    replace ((194 <=? 192 + x / 64) && (192 + x / 64 <=? 223)) with true by lia.
    replace ((128 <=? 128 + x mod 64) && (128 + x mod 64 <=? 191)) with true by lia. reflexivity. }
  destruct (x <? 65536) eqn:E3.
  { cbn [app utf8_valid]. unfold in_range.
    replace (224 + x / 4096 <? 128) with false by lia.
    replace ((194 <=? 224 + x / 4096) && (224 + x / 4096 <=? 223)) with false by lia.
    replace ((224 <=? 224 + x / 4096) && (224 + x / 4096 <=? 239)) with true by lia.
    replace ((128 <=? 128 + x mod 64) && (128 + x mod 64 <=? 191)) with true by lia.
    destruct (224 + x / 4096 =? 224) eqn:Ea.
    - replace ((160 <=? 128 + (x / 64) mod 64) && (128 + (x / 64) mod 64 <=? 191)) with true by lia. reflexivity.
    - destruct (224 + x / 4096 =? 237) eqn:Eb.
      + replace ((128 <=? 128 + (x / 64) mod 64) && (128 + (x / 64) mod 64 <=? 159)) with true by lia. reflexivity.
      + replace ((128 <=? 128 + (x / 64) mod 64) && (128 + (x / 64) mod 64 <=? 191)) with true by lia. reflexivity. }
  cbn [app utf8_valid]. unfold in_range.
  replace (240 + x / 262144 <? 128) with false by lia.
  replace ((194 <=? 240 + x / 262144) && (240 + x / 262144 <=? 223)) with false by lia.
  replace ((224 <=? 240 + x / 262144) && (240 + x / 262144 <=? 239)) with false by lia.
  replace ((240 <=? 240 + x / 262144) && (240 + x / 262144 <=? 244)) with true by lia.
  replace ((128 <=? 128 + x mod 64) && (128 + x mod 64 <=? 191)) with true by lia.
  replace ((128 <=? 128 + (x / 64) mod 64) && (128 + (x / 64) mod 64 <=? 191)) with true by lia.
  destruct (240 + x / 262144 =? 240) eqn:Ea.
  - replace ((144 <=? 128 + (x / 4096) mod 64) && (128 + (x / 4096) mod 64 <=? 191)) with true by lia. reflexivity.
  - destruct (240 + x / 262144 =? 244) eqn:Eb.
    + replace ((128 <=? 128 + (x / 4096) mod 64) && (128 + (x / 4096) mod 64 <=? 143)) with true by lia. reflexivity.
    + replace ((128 <=? 128 + (x / 4096) mod 64) && (128 + (x / 4096) mod 64 <=? 191)) with true by lia. reflexivity.
Qed.

Lemma utf8_valid_utf8 l : Forall scalar l -> utf8_valid (utf8 l) = true.
Proof.
  induction 1 as [|x l Hx H IH]; auto. unfold utf8 in *. cbn [map concat].
  rewrite utf8_valid_char by auto. auto.
Qed.

Lemma utf8_valid_ascii l r : Forall (fun x => x < 128) l -> utf8_valid (l ++ r) = utf8_valid r.
Proof.
  induction 1 as [|x l Hx H IH]; auto. cbn [app utf8_valid].
  replace (x <? 128) with true by lia. auto.
Qed.

Lemma utf8_no k l : k < 128 -> ~ In k l -> ~ In k (utf8 l).
Proof.
  intros Hk. unfold utf8. induction l as [|x l IH]; simpl; auto. intros H X.
  apply in_app_iff in X. destruct X as [X|X]; [|apply IH; auto].
  unfold utf8_char in X.
  destruct (x <? 128) eqn:E1; [simpl in X; intuition|].
  destruct (x <? 2048); [simpl in X; lia|].
  destruct (x <? 65536); simpl in X; lia.
Qed.

Lemma utf8_valid_snoc10 : forall n s, (length s <= n)%nat ->
  utf8_valid (s ++ [10]) = true -> utf8_valid s = true.
Proof.
  induction n as [|n IH]; intros s Hl H. { destruct s; [auto|simpl in Hl; lia]. }
  destruct s as [|x r]; auto. cbn [app utf8_valid] in *. simpl in Hl.
  destruct (x <? 128). { apply IH; [lia|auto]. }
  destruct (in_range 194 223 x).
  { destruct r as [|y r]; cbn [app] in *. { discriminate. }
    apply andb_true_iff in H. destruct H as (H1 & H2). rewrite H1. simpl in *. apply IH; [lia|auto]. }
  destruct (in_range 224 239 x).
  { destruct r as [|y [|z r]]; cbn [app] in *.
    - discriminate.
    - exfalso. change (in_range 128 191 10) with false in H.
      rewrite andb_false_r in H. discriminate.
    - apply andb_true_iff in H. destruct H as (H1 & H2). rewrite H1. simpl in *. apply IH; [lia|auto]. }
  destruct (in_range 240 244 x); auto.
  destruct r as [|y [|z [|w r]]]; cbn [app] in *.
  - discriminate.
  - discriminate.
  - exfalso. change (in_range 128 191 10) with false in H. rewrite andb_false_r in H. discriminate.
  - apply andb_true_iff in H. destruct H as (H1 & H2). rewrite H1. simpl in *. apply IH; [lia|auto].
Qed.

Lemma split_lines_nonempty : forall s cur, cur ++ s <> [] -> split_lines cur s <> [].
Proof.
  induction s as [|z s IH]; intros cur Hc; cbn [split_lines].
  - rewrite app_nil_r in Hc. destruct cur; [contradiction|discriminate].
  - destruct (z =? 10); [discriminate|]. apply IH. rewrite <- app_assoc. destruct cur; discriminate.
Qed.

Lemma join_split_lines : forall s cur, ~ In 10 cur -> cur ++ s <> [] ->
  join [10] (split_lines cur s) = cur ++ s \/ join [10] (split_lines cur s) ++ [10] = cur ++ s.
Proof.
  induction s as [|x s IH]; intros cur Hc Hne.
  - left. simpl. rewrite app_nil_r in *. destruct cur; [contradiction|]. reflexivity.
  - cbn [split_lines]. destruct (x =? 10) eqn:E.
    + apply N.eqb_eq in E. subst x. destruct s as [|y s].
      * right. reflexivity.
      * destruct (split_lines [] (y :: s)) as [|w ws] eqn:Es.
        { contradiction (split_lines_nonempty (y :: s) [] ltac:(discriminate) Es). }
        rewrite <- Es. 
        assert (J : forall l, l <> [] -> join [10] (cur :: l) = cur ++ [10] ++ join [10] l).
        { intros [|? ?]; [contradiction|]. reflexivity. }
        rewrite J by (rewrite Es; discriminate).
        destruct (IH [] (fun X => match X with end)) as [G|G]; [discriminate| |].
        -- left. rewrite G. reflexivity.
        -- right. rewrite <- !app_assoc. rewrite G. reflexivity.
    + destruct (IH (cur ++ [x])) as [G|G].
      * intros X. apply in_app_iff in X. destruct X as [X|[X|[]]]; auto.
        subst. rewrite N.eqb_refl in E. discriminate.
      * destruct cur; discriminate.
      * left. rewrite G, <- app_assoc. reflexivity.
      * right. rewrite G, <- app_assoc. reflexivity.
Qed.

Lemma utf8_valid_joined s : utf8_valid s = true -> s <> [] ->
  utf8_valid (join [10] (split_lines [] s)) = true.
Proof.
  intros H Hne. destruct (join_split_lines s [] (fun X => match X with end)) as [G|G]; auto.
  - rewrite G. auto.
  - eapply utf8_valid_snoc10; [reflexivity|]. rewrite G. auto.
Qed.

(* -------------------------------------------------------------------- symbols *)

Definition kind_code (k : kind) : N :=
  match k with K_input => 105 | K_latch => 108 | K_output => 111 | K_bad => 98 | K_constraint => 99 end.

Lemma kind_letter_code k : kind_letter k = [kind_code k].
Proof. destruct k; reflexivity. Qed.

Definition kind_eqb (a b : kind) : bool := kind_code a =? kind_code b.
Lemma kind_eqb_spec a b : kind_eqb a b = true <-> a = b.
Proof. destruct a, b; cbn; split; intros; auto; try discriminate. Qed.

Definition sym_field (k : kind) (n : AIGNode) : bytes :=
  match k with
  | K_input => node_input_symbol n | K_latch => node_latch_symbol n
  | K_output => node_output_symbol n | K_bad => node_bad_symbol n
  | K_constraint => node_constraint_symbol n
  end.

Definition last_name (c : circuit) (syms : list symbol) (k : kind) (i : N) : bytes :=
  fold_left (fun acc s => let '(k', p, name) := s in
               if kind_eqb k k' && (target c k' p =? i) then name else acc) syms [].

Definition sym_inv (c : circuit) (syms : list symbol) (a : AIG) : Prop :=
  forall k i n, nth_error (nodes a) i = Some n -> sym_field k n = last_name c syms k (N.of_nat i).

Lemma kind_list_length c k : length (kind_list c k) = N.to_nat (kind_count c k).
Proof.
  destruct k; cbn [kind_list kind_count]; rewrite ?numbers_length, ?map_length; unfold lenN; lia.
Qed.

Lemma last_name_snoc c syms k' p name k i : last_name c (syms ++ [(k', p, name)]) k i =
  if kind_eqb k k' && (target c k' p =? i) then name else last_name c syms k i.
Proof. unfold last_name. rewrite fold_left_app. reflexivity. Qed.

Lemma symbol_add c a syms k p name : represents a c -> circuit_wf c ->
  p < kind_count c k -> sym_inv c syms a ->
  exists a', add_symbol_to_node a (kind_code k) p name = Ok a' /\
    sym_inv c (syms ++ [(k, p, name)]) a' /\ comments a' = comments a.
Proof.
  intros Hr Hwf Hp HI.
  assert (Hidx : (N.to_nat p < length (kind_list c k))%nat) by (rewrite kind_list_length; lia).
  assert (Hle : target c k p <= c_max c).
  { unfold target. pose proof (nth_In (kind_list c k) 0 Hidx) as Hin.
    revert Hin. generalize (nth (N.to_nat p) (kind_list c k) 0). intros t Hin.
    destruct Hwf as (_ & W2 & W3 & W4 & _). rewrite Forall_forall in W2, W3, W4.
    destruct k; cbn [kind_list] in Hin; try (apply in_numbers in Hin; unfold c_max; lia);
      apply in_map_iff in Hin; destruct Hin as (l & <- & Hl); [apply W2|apply W3|apply W4]; auto. }
  destruct (node_at a c _ Hr Hle) as (n & En & Hn).
  assert (Hup : exists a', update_node a (target c k p)
     (fun n => match k with
       | K_input => set_input_symbol n name | K_latch => set_latch_symbol n name
       | K_output => set_output_symbol n name | K_bad => set_bad_symbol n name
       | K_constraint => set_constraint_symbol n name end) = Ok a' /\
     sym_inv c (syms ++ [(k, p, name)]) a' /\ comments a' = comments a).
  { unfold update_node. rewrite En. cbn [bind].
    assert (Ht : match k with K_input => node_type n = Input | K_latch => node_type n = Latch
                 | _ => True end).
    { destruct k; auto.
      - eapply node_is_input; eauto. pose proof (nth_In _ 0 Hidx) as Hin.
        fold (target c K_input p) in Hin. cbn [kind_list] in Hin. apply in_numbers in Hin.
        unfold is_input. lia.
      - pose proof (nth_In _ 0 Hidx) as Hin.
        fold (target c K_latch p) in Hin. cbn [kind_list] in Hin. apply in_numbers in Hin.
        assert (HL : is_latch c (target c K_latch p)) by (apply is_latch_iff; lia).
        destruct HL as (nx & r & L). eapply node_is_latch in Hn; eauto. tauto. }
    apply index_ok in En.
    assert (Hset : exists n', match k with
       | K_input => set_input_symbol n name | K_latch => set_latch_symbol n name
       | K_output => set_output_symbol n name | K_bad => set_bad_symbol n name
       | K_constraint => set_constraint_symbol n name end = Ok n' /\
       forall k', sym_field k' n' = if kind_eqb k' k then name else sym_field k' n).
    { destruct k; unfold set_input_symbol, set_latch_symbol, set_output_symbol, set_bad_symbol,
        set_constraint_symbol; try rewrite Ht; cbn [node_type_eqb assert_ bind];
        eexists; (split; [reflexivity|]); intros []; reflexivity. }
    destruct Hset as (n' & En' & Hf). rewrite En'. cbn [bind]. eexists; split; [reflexivity|].
    split; [|reflexivity].
    intros k' i m. cbn [replace_nodes nodes]. rewrite last_name_snoc.
    destruct (Nat.eq_dec (N.to_nat (target c k p)) i) as [E|E].
    - subst i. rewrite set_nth_same by (eapply nth_error_some_lt; eauto). intros X; inv X.
      rewrite Hf, N2Nat.id, N.eqb_refl, andb_true_r.
      destruct (kind_eqb k' k); auto. rewrite (HI k' _ _ En), N2Nat.id. auto.
    - rewrite set_nth_other by auto. intros X.
      replace (target c k p =? N.of_nat i) with false by lia. rewrite andb_false_r. auto. }
  destruct Hup as (a' & Hu & Hs). exists a'. split; auto. rewrite <- Hu.
  unfold represents in Hr. decompose [and] Hr; clear Hr.
  assert (KL : index (kind_list c k) p = Ok (target c k p)).
  { apply index_ok. apply nth_error_nth'. auto. }
  assert (KM : forall ls, kind_list c k = map lit_var ls ->
    exists l, index ls p = Ok l /\ N.shiftr l 1 = target c k p).
  { intros ls E. rewrite E in KL. apply index_ok in KL. rewrite nth_error_map in KL.
    destruct (nth_error ls (N.to_nat p)) as [l|] eqn:El; [|discriminate].
    cbn [option_map] in KL. injection KL as KL.
    exists l. split; [apply index_ok; auto|]. rewrite shiftr_var. exact KL. }
  unfold add_symbol_to_node. destruct k; cbn [kind_code];
    repeat match goal with |- context [?x =? ?y] => first [
      change (x =? y) with true | change (x =? y) with false] end;
    repeat match goal with E : ?f a = _ |- context [index (?f a)] => rewrite E end.
  - cbn [kind_list] in KL. rewrite KL. reflexivity.
  - cbn [kind_list] in KL. rewrite KL. reflexivity.
  - destruct (KM _ eq_refl) as (l & E1 & E2). rewrite E1. cbn [bind]. rewrite E2. reflexivity.
  - destruct (KM _ eq_refl) as (l & E1 & E2). rewrite E1. cbn [bind]. rewrite E2. reflexivity.
  - destruct (KM _ eq_refl) as (l & E1 & E2). rewrite E1. cbn [bind]. rewrite E2. reflexivity.
Qed.

Definition symbol_body (s : symbol) : bytes :=
  let '(k, p, name) := s in words [kind_letter k ++ dec p; name].

Lemma symbol_body_eq k p name : symbol_body (k, p, name) = kind_code k :: dec p ++ 32 :: name.
Proof.
  unfold symbol_body, words. cbn [join]. rewrite kind_letter_code. rewrite <- app_assoc. reflexivity.
Qed.

Lemma name_facts name : name_ok name ->
  name <> [] /\ utf8_valid name = true /\ ~ In 10 name /\ ~ In 32 name.
Proof.
  intros (l & -> & Hne & HF). rewrite Forall_forall in HF. split; [|split; [|split]].
  - destruct l as [|x l]; [contradiction|]. unfold utf8. cbn [map concat]. unfold utf8_char.
    repeat destruct (_ <? _); discriminate.
  - apply utf8_valid_utf8. apply Forall_forall. intros x Hx. apply HF; auto.
  - apply utf8_no; [lia|]. intros X. apply HF in X. tauto.
  - apply utf8_no; [lia|]. intros X. apply HF in X. tauto.
Qed.

Lemma kind_code_small k : kind_code k < 128 /\ kind_code k <> 10 /\ kind_code k <> 32.
Proof. destruct k; cbn; lia. Qed.

Lemma kind_count_small c k : file_fits c -> kind_count c k <= usize_max.
Proof.
  intros (H1 & H2 & H3 & H4). change (2 ^ 37) with 137438953472 in *.
  change (2 ^ 60) with 1152921504606846976 in *. unfold c_max, usize_max in *.
  destruct k; cbn [kind_count]; lia.
Qed.

Lemma symbol_read c a syms s : represents a c -> circuit_wf c -> file_fits c ->
  symbol_ok c s -> sym_inv c syms a ->
  exists a', read_symbol_line a (symbol_body s) = Ok a' /\
    sym_inv c (syms ++ [s]) a' /\ comments a' = comments a.
Proof.
  intros Hr Hwf Hf Hs HI. destruct s as ((k, p), name). destruct Hs as (Hp & Hn).
  apply name_facts in Hn. destruct Hn as (N1 & N2 & N3 & N4).
  unfold read_symbol_line. cbn [symbol_body]. unfold words. rewrite split_spaces_words.
  2:{ discriminate. }
  2:{ intros w [<-|[<-|[]]]; auto. intros X. rewrite kind_letter_code in X. simpl in X.
      destruct X as [X|X]; [destruct (kind_code_small k); tauto|]. apply dec_no32 in X; auto. }
  cbn [length Nat.eqb assert_ bind indexn nth_error unwrap].
  rewrite kind_letter_code. cbn [app].
  destruct (dec p) as [|d ds] eqn:Ed. { pose proof (dec_nonempty p) as X. rewrite Ed in X. discriminate. }
  replace (existsb (N.eqb (kind_code k)) [105; 108; 111; 98; 99]) with true
    by (destruct k; reflexivity).
  cbn [assert_ bind]. rewrite <- Ed. rewrite convert_dec by (pose proof (kind_count_small c k Hf); lia).
  cbn [bind]. apply symbol_add; auto.
Qed.

Lemma symbol_body_no10 c s : symbol_ok c s -> ~ In 10 (symbol_body s).
Proof.
  destruct s as ((k, p), name). intros (_ & Hn). apply name_facts in Hn.
  rewrite symbol_body_eq. intros [X|X]; [destruct (kind_code_small k); tauto|].
  apply in_app_iff in X. destruct X as [X|[X|X]]; [apply dec_no10 in X; auto|discriminate|tauto].
Qed.

Lemma symbol_text_ended syms : symbol_text syms = ended (map symbol_body syms).
Proof.
  unfold symbol_text, ended. rewrite map_map. f_equal. apply map_ext.
  intros ((k, p), name). reflexivity.
Qed.

Lemma read_symbols_ok c tail : circuit_wf c -> file_fits c -> forall syms done a,
  Forall (symbol_ok c) syms -> represents a c -> sym_inv c done a ->
  exists a', read_symbol_lines a (map symbol_body syms ++ tail) = read_symbol_lines a' tail /\
    represents a' c /\ sym_inv c (done ++ syms) a' /\ comments a' = comments a.
Proof.
  intros Hwf Hf. induction syms as [|s syms IH]; intros done a HF Hr HI.
  { exists a. rewrite app_nil_r. auto. }
  inv HF. cbn [map app read_symbol_lines].
  destruct (symbol_read c a done s Hr Hwf Hf H1 HI) as (a1 & E1 & HI1 & Ec).
  destruct s as ((k, p), name). pose proof H1 as (_ & Hn). apply name_facts in Hn.
  assert (Eu : from_utf8 (symbol_body (k, p, name)) = Ok (symbol_body (k, p, name))).
  { unfold from_utf8. rewrite symbol_body_eq.
    replace (kind_code k :: dec p ++ 32 :: name) with ((kind_code k :: dec p ++ [32]) ++ name)
      by (cbn [app]; rewrite <- app_assoc; reflexivity).
    rewrite utf8_valid_ascii.
    - destruct Hn as (_ & -> & _). reflexivity.
    - constructor; [apply kind_code_small|]. apply Forall_app. split; [apply dec_lt128|].
      repeat constructor. }
  rewrite Eu. cbn [bind].
  assert (El : list_eqb (symbol_body (k, p, name)) [99] = false).
  { rewrite symbol_body_eq. destruct (dec p); cbn; [rewrite andb_false_r; auto|rewrite andb_false_r; auto]. }
  rewrite El, E1. cbn [bind].
  assert (Hr1 : represents a1 c) by (eapply read_symbol_line_represents; eauto).
  destruct (IH _ _ H2 Hr1 HI1) as (a2 & E2 & R2 & I2 & C2).
  exists a2. rewrite E2. rewrite <- app_assoc in I2.
  split; [reflexivity|]. split; [exact R2|]. split; [exact I2|]. congruence.
Qed.

Lemma graph_sym_inv c : sym_inv c [] (graph c).
Proof.
  intros k i n H. cbn [graph nodes] in H. apply nth_error_In in H. unfold graph_nodes in H.
  cbn [last_name fold_left].
  change (last_name c [] k (N.of_nat i)) with (@nil N).
  destruct H as [<-|H]; [destruct k; reflexivity|].
  apply in_app_iff in H. destruct H as [H|H]; [|apply in_app_iff in H; destruct H as [H|H]];
    apply in_map_iff in H; destruct H as (x & <- & _); destruct k; reflexivity.
Qed.

(** The comment section. *)
Lemma comment_read a o : comment_ok o -> comments a = [] ->
  exists text, read_symbol_lines a (split_lines [] (comment_text o)) = Ok (replace_comments a text) /\
    (text = [] \/ text = [99] \/ exists t, text = 99 :: 10 :: t).
Proof.
  intros Ho Hc. destruct o as [text|].
  2:{ exists []. split; auto. simpl. rewrite <- Hc. destruct a; reflexivity. }
  destruct Ho as (l & -> & HF).
  unfold comment_text, line, words. cbn [join].
  change (bs "c") with [99]. cbn [app]. change (99 :: 10 :: utf8 l) with ([99] ++ 10 :: utf8 l).
  rewrite split_lines_cons by (simpl; intuition discriminate). cbn [app read_symbol_lines].
  change (from_utf8 [99]) with (@Ok bytes [99]). cbn [bind].
  change (list_eqb [99] [99]) with true. cbv iota.
  pose proof (utf8_valid_utf8 l HF) as Hv.
  destruct (split_lines [] (utf8 l)) as [|w ws] eqn:Es.
  - exists [99]. split; auto.
  - assert (J : join [10] ([99] :: w :: ws) = 99 :: 10 :: join [10] (w :: ws)) by reflexivity.
    rewrite J. unfold from_utf8. change (utf8_valid (99 :: 10 :: ?x)) with (utf8_valid x).
    rewrite <- Es, utf8_valid_joined; auto.
    + eexists. split; [reflexivity|]. right; right. eexists. reflexivity.
    + intros X. rewrite X in Es. discriminate.
Qed.

(** The final checks pass. *)
Lemma check_types_ok a is t :
  (forall i, In i is -> exists n, index (nodes a) i = Ok n /\ node_type n = t) ->
  check_types a is t = Ok tt.
Proof.
  intros H. unfold check_types. rewrite (mapM_total _ (fun _ => tt)); auto.
  intros i Hi. destruct (H i Hi) as (n & -> & <-). cbn [bind].
  destruct (node_type n); reflexivity.
Qed.

Lemma check_aig_ok a c : represents a c -> check_aig a = Ok tt.
Proof.
  intros Hr. unfold check_aig.
  destruct (node_at a c 0 Hr) as (n0 & E0 & Hn0); [lia|]. rewrite E0. cbn [bind].
  apply node_is_zero in Hn0. destruct Hn0 as (_ & ->). cbn [node_type_eqb assert_ bind].
  assert (T1 : check_types a (inputs a) Input = Ok tt).
  { apply check_types_ok. intros i Hi.
    replace (inputs a) with (numbers 1 (c_inputs c)) in Hi by (unfold represents in Hr; symmetry; tauto).
    apply in_numbers in Hi. destruct (node_at a c i Hr) as (n & E & Hn); [unfold c_max; lia|].
    exists n. split; auto. eapply node_is_input; eauto. unfold is_input. lia. }
  assert (T2 : check_types a (latches a) Latch = Ok tt).
  { apply check_types_ok. intros i Hi.
    replace (latches a) with (numbers (c_inputs c + 1) (lenN (c_latches c))) in Hi
      by (unfold represents in Hr; symmetry; tauto).
    apply in_numbers in Hi. assert (HL : is_latch c i) by (apply is_latch_iff; lia).
    destruct (node_at a c i Hr) as (n & E & Hn); [apply latch_le_max; auto|].
    exists n. split; auto. destruct HL as (nx & r & L). eapply node_is_latch in Hn; eauto. tauto. }
  assert (T3 : check_types a (ands a) And = Ok tt).
  { apply check_types_ok. intros i Hi.
    replace (ands a) with (numbers (c_inputs c + lenN (c_latches c) + 1) (lenN (c_ands c))) in Hi
      by (unfold represents in Hr; symmetry; tauto).
    apply in_numbers in Hi. assert (HG : is_gate c i) by (apply is_gate_iff; unfold c_max; lia).
    destruct (node_at a c i Hr) as (n & E & Hn); [apply gate_le_max; auto|].
    exists n. split; auto. destruct HG as (nx & r & L). eapply node_is_gate in Hn; eauto. tauto. }
  rewrite T1, T2, T3. clear T1 T2 T3 E0.
  destruct Hr as (_ & -> & -> & -> & -> & -> & -> & _ & _ & _ & _ & -> & -> & -> & -> & -> & ->).
  assert (L : forall f k, lenN (numbers f k) = k) by (intros; unfold lenN; rewrite numbers_length; lia).
  rewrite !L, !N.eqb_refl. reflexivity.
Qed.

(** Reading an encoded file. *)
Lemma parse_encode st c syms o : circuit_wf c -> file_fits c -> Forall (symbol_ok c) syms ->
  comment_ok o ->
  exists a, from_vector_of_bytes (encode st c ++ symbol_text syms ++ comment_text o) = Ok a /\
    represents a c /\ sym_inv c syms a /\
    (comments a = [] \/ comments a = [99] \/ exists t, comments a = 99 :: 10 :: t).
Proof.
  intros Hwf Hf HS Ho. rewrite parse_eq, parse_circuit_encode by auto. cbn [bind].
  unfold read_symbols_and_comments. rewrite symbol_text_ended, split_lines_ended.
  2:{ intros w Hw. apply in_map_iff in Hw. destruct Hw as (s & <- & Hs).
      rewrite Forall_forall in HS. eapply symbol_body_no10; eauto. }
  destruct (read_symbols_ok c (split_lines [] (comment_text o)) Hwf Hf syms [] (graph c) HS
              (graph_represents c) (graph_sym_inv c)) as (a1 & E1 & R1 & I1 & C1).
  destruct (comment_read a1 o Ho) as (text & E2 & Ht). { rewrite C1. reflexivity. }
  exists (replace_comments a1 text).
  split; [|split; [exact R1|split; [exact I1|exact Ht]]].
  match goal with |- bind ?x _ = _ => assert (E3 : x = Ok (replace_comments a1 text)) end.
  { etransitivity; [exact E1|exact E2]. }
  rewrite E3. cbn [bind]. rewrite (check_aig_ok _ c) by exact R1. reflexivity.
Qed.
