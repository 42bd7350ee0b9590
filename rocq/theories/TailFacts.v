(** The parser accepts exactly the files of SpecFile.v: symbols, comments, the whole file. *)
From Verif Require Import Base Aig AigParse AigPrint Spec SpecAig SpecText SpecAiger SpecFile Tac
  TextFacts FormulasFacts AigFacts SimFacts ParseFacts EncodeFacts SymbolFacts FileFacts GrammarFacts
  PrintFacts AigThms.
Open Scope N_scope.
Import String.StringSyntax.
Arguments bs s%string_scope.

Lemma NoDup_app_intro A (l m : list A) : NoDup l -> NoDup m ->
  (forall x, In x l -> In x m -> False) -> NoDup (l ++ m).
Proof.
  intros Hl Hm H. induction Hl as [|x l Hx Hl IH]; auto. cbn [app]. constructor.
  - rewrite in_app_iff. intros [X|X]; auto. apply (H x); auto. left; auto.
  - apply IH. intros y Y1 Y2. apply (H y); auto. right; auto.
Qed.

(* ---------------------------------------------------------------------- symbols *)

Lemma kind_of_code x : existsb (N.eqb x) [105; 108; 111; 98; 99] = true -> exists k, kind_code k = x.
Proof.
  cbn [existsb]. rewrite !orb_true_iff, !N.eqb_eq. intros [H|[H|[H|[H|[H|H]]]]]; subst.
  - exists K_input; reflexivity.
  - exists K_latch; reflexivity.
  - exists K_output; reflexivity.
  - exists K_bad; reflexivity.
  - exists K_constraint; reflexivity.
  - discriminate.
Qed.

Lemma add_symbol_count a c k p name a' : represents a c ->
  add_symbol_to_node a (kind_code k) p name = Ok a' -> p < kind_count c k.
Proof.
  intros Hr H.
  assert (G : forall (l : list N) x, index l p = Ok x -> p < lenN l).
  { intros l x E. apply index_ok in E. apply nth_error_some_lt in E. unfold lenN. lia. }
  destruct Hr as (_ & _ & _ & _ & _ & _ & _ & _ & _ & _ & _ & R1 & R2 & _ & R4 & R5 & R6).
  unfold add_symbol_to_node in H. destruct k; cbn [kind_code] in H;
    repeat match type of H with context [?x =? ?y] => first [
      change (x =? y) with true in H | change (x =? y) with false in H] end;
    apply bind_ok in H; destruct H as (x & E & _); apply G in E;
    cbn [kind_count]; rewrite ?R1, ?R2, ?R4, ?R5, ?R6 in E; auto;
    unfold lenN in E at 1; rewrite numbers_length in E; lia.
Qed.

Lemma symbol_piece_eq c k p name w : symbol_piece c (k, p, name) w <->
  p < kind_count c k /\ name_text name /\ exists u, numeral p u /\ w = words [kind_code k :: u; name].
Proof.
  unfold symbol_piece. rewrite kind_letter_code. unfold words. cbn [join app].
  reflexivity.
Qed.

Lemma symbol_forward a c w a' : represents a c -> unicode w -> ~ In 10 w ->
  read_symbol_line a w = Ok a' -> exists s, symbol_piece c s w.
Proof.
  intros Hr Hu H10 H. unfold read_symbol_line in H. cbv zeta in H.
  remember (split_spaces [] w) as ps eqn:Ep. symmetry in Ep.
  apply split_spaces_iff in Ep. destruct Ep as (_ & P2 & P3).
  apply bind_ok in H. destruct H as ([] & El & H). apply assert_ok in El.
  destruct ps as [|word [|name [|z ps]]]; try discriminate.
  cbn [indexn nth_error unwrap bind] in H.
  destruct word as [|x [|y number]]; try discriminate.
  apply bind_ok in H. destruct H as ([] & Ek & H). apply assert_ok in Ek.
  apply kind_of_code in Ek. destruct Ek as (k & <-).
  apply bind_ok in H. destruct H as (p & En & H). apply convert_iff in En.
  apply (add_symbol_count _ c) in H; auto.
  exists (k, p, name). apply symbol_piece_eq. split; auto. split; [|eauto].
  subst w. unfold words in *. cbn [join] in *. split; [|split].
  - apply utf8_valid_iff. apply utf8_valid_iff in Hu.
    change ((kind_code k :: y :: number) ++ [32] ++ name)
      with ((kind_code k :: (y :: number)) ++ [32] ++ name) in Hu.
    rewrite app_assoc, utf8_valid_ascii in Hu; auto.
    apply Forall_app. split; [|repeat constructor]. constructor; [apply kind_code_small|].
    eapply numeral_ascii; eauto.
  - intros X. apply H10. apply in_app_iff. right. apply in_app_iff. auto.
  - apply P3. right; left; auto.
Qed.

Lemma symbol_piece_no10 c s w : symbol_piece c s w -> ~ In 10 w.
Proof.
  destruct s as ((k, p), name). rewrite symbol_piece_eq. intros (_ & (_ & Hn & _) & u & Hu & ->).
  apply words_no10. intros v [<-|[<-|[]]]; auto. intros [X|X].
  - destruct (kind_code_small k) as (_ & Y & _). auto.
  - revert X. eapply numeral_no; [| |eauto]; lia.
Qed.

Lemma symbol_piece_unicode c s w : symbol_piece c s w -> unicode w.
Proof.
  destruct s as ((k, p), name). rewrite symbol_piece_eq. intros (_ & (Hn & _) & u & Hu & ->).
  unfold words. cbn [join]. apply utf8_valid_iff. rewrite app_assoc, utf8_valid_ascii.
  - apply utf8_valid_iff; auto.
  - apply Forall_app. split; [|repeat constructor]. constructor; [apply kind_code_small|].
    eapply numeral_ascii; eauto.
Qed.

Lemma symbol_piece_long c s w : symbol_piece c s w -> list_eqb w [99] = false.
Proof.
  destruct s as ((k, p), name). rewrite symbol_piece_eq. intros (_ & _ & u & Hu & ->).
  apply numeral_nonempty in Hu. unfold words. cbn [join app]. destruct u as [|y u]; [contradiction|].
  destruct (list_eqb _ _) eqn:E; auto. apply list_eqb_eq in E. discriminate.
Qed.

Lemma symbol_backward c a done s w : represents a c -> circuit_wf c -> symbol_piece c s w ->
  sym_inv c done a ->
  exists a', read_symbol_line a w = Ok a' /\ sym_inv c (done ++ [s]) a' /\ comments a' = comments a.
Proof.
  intros Hr Hwf Hs HI. destruct s as ((k, p), name). apply symbol_piece_eq in Hs.
  destruct Hs as (Hp & (N1 & N2 & N3) & u & Hu & ->).
  unfold read_symbol_line.
  rewrite (proj2 (split_spaces_iff (words [kind_code k :: u; name]) [kind_code k :: u; name])).
  2:{ split; [discriminate|]. split; [reflexivity|]. intros w [<-|[<-|[]]]; auto. intros [X|X].
      - destruct (kind_code_small k) as (_ & _ & Y). auto.
      - revert X. eapply numeral_no; [| |eauto]; lia. }
  cbn [length Nat.eqb assert_ bind indexn nth_error unwrap].
  pose proof (numeral_nonempty _ _ Hu) as Hne. destruct u as [|y u]; [contradiction|].
  replace (existsb (N.eqb (kind_code k)) [105; 108; 111; 98; 99]) with true by (destruct k; reflexivity).
  cbn [assert_ bind]. apply convert_iff in Hu. rewrite Hu. cbn [bind]. apply symbol_add; auto.
Qed.

Lemma symbols_backward c tail : circuit_wf c -> forall syms ts done a,
  Forall2 (symbol_piece c) syms ts -> represents a c -> sym_inv c done a ->
  exists a', read_symbol_lines a (ts ++ tail) = read_symbol_lines a' tail /\
    represents a' c /\ sym_inv c (done ++ syms) a' /\ comments a' = comments a.
Proof.
  intros Hwf syms ts done a HF. revert done a.
  induction HF as [|s w syms ts Hs HF IH]; intros done a Hr HI.
  { exists a. rewrite app_nil_r. auto. }
  cbn [app read_symbol_lines].
  destruct (symbol_backward c a done s w Hr Hwf Hs HI) as (a1 & E1 & HI1 & Ec).
  rewrite (proj2 (from_utf8_ok w w)) by (split; [reflexivity|eapply symbol_piece_unicode; eauto]).
  cbn [bind]. rewrite (symbol_piece_long _ _ _ Hs), E1. cbn [bind].
  assert (Hr1 : represents a1 c) by (eapply read_symbol_line_represents; eauto).
  destruct (IH _ _ Hr1 HI1) as (a2 & E2 & R2 & I2 & C2).
  exists a2. rewrite E2. rewrite <- app_assoc in I2.
  split; [reflexivity|]. split; [exact R2|]. split; [exact I2|]. congruence.
Qed.

Lemma symbols_forward c : forall ls a a', represents a c -> (forall w, In w ls -> ~ In 10 w) ->
  read_symbol_lines a ls = Ok a' ->
  exists syms ts, Forall2 (symbol_piece c) syms ts /\
    (ls = ts \/ exists more, ls = ts ++ [99] :: more /\ unicode (join [10] ([99] :: more))).
Proof.
  induction ls as [|w ls IH]; intros a a' Hr Hn H.
  { exists [], []. split; [constructor|]. left; reflexivity. }
  cbn [read_symbol_lines] in H. apply bind_ok in H. destruct H as (w' & Ew & H).
  apply from_utf8_ok in Ew. destruct Ew as (-> & Hu). destruct (list_eqb w [99]) eqn:E.
  - apply list_eqb_eq in E. subst w. apply bind_ok in H. destruct H as (t & Et & _).
    apply from_utf8_ok in Et. destruct Et as (_ & Et). exists [], []. split; [constructor|].
    right. exists ls. auto.
  - apply bind_ok in H. destruct H as (a1 & E1 & H).
    destruct (symbol_forward a c w a1 Hr Hu) as (s & Hs); auto. { apply Hn. left; auto. }
    assert (Hr1 : represents a1 c) by (eapply read_symbol_line_represents; eauto).
    destruct (IH a1 a' Hr1) as (syms & ts & HF & HL); auto. { intros v Hv. apply Hn. right; auto. }
    exists (s :: syms), (w :: ts). split; [constructor; auto|].
    destruct HL as [->|(more & -> & Hm)]; [left; reflexivity|right; exists more; auto].
Qed.

(* ---------------------------------------------------------------------- the tail *)

Lemma join_app_ended l y : y <> [] -> join [10] (l ++ y) = ended l ++ join [10] y.
Proof.
  intros Hy. induction l as [|w l IH]; [reflexivity|]. unfold ended in *. cbn [map concat app].
  rewrite <- !app_assoc. cbn [app]. rewrite <- IH.
  destruct (l ++ y) as [|z l'] eqn:E; [apply app_eq_nil in E; tauto|]. reflexivity.
Qed.

Lemma unicode_app a b : unicode a -> unicode b -> unicode (a ++ b).
Proof.
  intros (l & Hl & ->) (m & Hm & ->). exists (l ++ m). split; [apply Forall_app; auto|].
  unfold utf8. rewrite map_app, concat_app. reflexivity.
Qed.

Lemma unicode_ascii_tail a b : Forall (fun x => x < 128) a -> unicode (a ++ b) -> unicode b.
Proof. intros Ha H. apply utf8_valid_iff in H. rewrite utf8_valid_ascii in H by auto. apply utf8_valid_iff; auto. Qed.

Lemma split_lines_no10 s w : In w (split_lines [] s) -> ~ In 10 w.
Proof.
  destruct (split_lines_spec s) as (ws & l & _ & Hl & Hw & ->). intros H. apply in_app_iff in H.
  destruct H as [H|H]; auto. destruct l; [destruct H|destruct H as [<-|[]]; auto].
Qed.

Lemma split_lines_one w : w <> [] -> ~ In 10 w -> split_lines [] w = [w].
Proof.
  intros Hne Hn. destruct (split_lines_spec w) as (ws & l & E & Hl & Hw & ->).
  destruct ws as [|v ws].
  - cbn in E. subst l. destruct w; [contradiction|reflexivity].
  - exfalso. apply Hn. rewrite E. unfold ended. cbn [map concat]. rewrite !in_app_iff.
    left; left; right; left; auto.
Qed.

Lemma ten_unicode : unicode [10].
Proof. apply ascii_unicode. repeat constructor. Qed.

Lemma tail_forward c a a' t : represents a c -> read_symbols_and_comments a t = Ok a' ->
  exists syms comment, tail_text c syms comment t.
Proof.
  intros Hr H. unfold read_symbols_and_comments in H.
  apply (symbols_forward c) in H; auto. 2:{ apply split_lines_no10. }
  destruct H as (syms & ts & HF & HL). exists syms.
  destruct (list_eq_dec N.eq_dec t []) as [->|Hne].
  { exists None, ts. split; auto. left.
    destruct HL as [HL|(more & HL & _)]; [|destruct ts; discriminate].
    cbn in HL. subst ts. reflexivity. }
  pose proof (join_split_lines t [] (fun X => match X with end) Hne) as J.
  pose proof (split_lines_nonempty t [] Hne) as Hnl. cbn [app] in J.
  destruct HL as [HL|(more & HL & Hu)].
  - exists None, ts. split; auto. rewrite HL in J, Hnl. fold (ended ts).
    assert (E : join [10] ts ++ [10] = ended ts).
    { destruct (exists_last Hnl) as (l' & x & ->). rewrite join_app_ended by discriminate.
      rewrite ended_app, <- app_assoc. unfold ended at 3. cbn [join map concat].
      rewrite app_nil_r. reflexivity. }
    rewrite <- E. destruct J as [J|J].
    + right. rewrite <- J. split; [|reflexivity]. intros ->. apply Hnl. inv HF. reflexivity.
    + left. auto.
  - rewrite HL in J. rewrite join_app_ended in J by discriminate.
    destruct more as [|m more].
    + exists (Some []), ts. split; [exact HF|]. fold (ended ts). split; [exists []; split; [constructor|reflexivity]|].
      cbn [join] in J. destruct J as [J|J].
      * right. auto.
      * left. rewrite <- J, <- app_assoc. reflexivity.
    + change (join [10] ([99] :: m :: more)) with ([99; 10] ++ join [10] (m :: more)) in J, Hu.
      apply unicode_ascii_tail in Hu; [|repeat constructor].
      destruct J as [J|J].
      * exists (Some (join [10] (m :: more))), ts. split; [exact HF|]. fold (ended ts). split; auto.
      * exists (Some (join [10] (m :: more) ++ [10])), ts. split; [exact HF|]. fold (ended ts).
        split; [apply unicode_app; auto; apply ten_unicode|]. left. rewrite <- J, <- !app_assoc. reflexivity.
Qed.

(** What becomes of a comment. *)
Definition kept_comment (o : option bytes) : bytes :=
  match o with
  | None => []
  | Some text => without_nul (join [10] ([99] :: split_lines [] text))
  end.

Lemma comment_lines a text : unicode text ->
  read_symbol_lines a ([99] :: split_lines [] text) = Ok (replace_comments a (kept_comment (Some text))).
Proof.
  intros Hu. cbn [read_symbol_lines]. change (from_utf8 [99]) with (@Ok bytes [99]). cbn [bind].
  change (list_eqb [99] [99]) with true. cbv iota.
  rewrite (proj2 (from_utf8_ok _ (join [10] ([99] :: split_lines [] text)))); [reflexivity|].
  split; [reflexivity|]. destruct (split_lines [] text) as [|w ws] eqn:Es.
  - apply ascii_unicode. repeat constructor.
  - change (join [10] ([99] :: w :: ws)) with ([99; 10] ++ join [10] (w :: ws)).
    apply unicode_app; [apply ascii_unicode; repeat constructor|].
    rewrite <- Es. apply utf8_valid_iff. apply utf8_valid_joined; [apply utf8_valid_iff; auto|].
    intros ->. discriminate.
Qed.

Lemma tail_backward c a syms o t : represents a c -> circuit_wf c -> sym_inv c [] a -> comments a = [] ->
  tail_text c syms o t ->
  exists a', read_symbols_and_comments a t = Ok a' /\ represents a' c /\ sym_inv c syms a' /\
    comments a' = kept_comment o.
Proof.
  intros Hr Hwf HI Hc (ts & HF & Ht). unfold read_symbols_and_comments. cbv zeta in Ht.
  fold (ended ts) in Ht.
  assert (N10 : forall w, In w ts -> ~ In 10 w).
  { eapply forall2_no10; [|exact HF]. apply symbol_piece_no10. }
  destruct o as [text|].
  - destruct Ht as (Hu & Ht).
    assert (E : split_lines [] t = ts ++ [99] :: split_lines [] text).
    { destruct Ht as [->|(-> & ->)].
      - change (bs "c" ++ [10] ++ text) with ([99] ++ 10 :: text). rewrite split_lines_ended by auto.
        reflexivity.
      - rewrite split_lines_ended by auto. reflexivity. }
    rewrite E.
    destruct (symbols_backward c ([99] :: split_lines [] text) Hwf syms ts [] a HF Hr HI)
      as (a1 & E1 & R1 & I1 & C1).
    exists (replace_comments a1 (kept_comment (Some text))).
    split; [rewrite E1; apply comment_lines; auto|]. split; [exact R1|]. split; [exact I1|]. reflexivity.
  - assert (E : split_lines [] t = ts ++ []).
    { destruct Ht as [->|(Hne & Ht)].
      - rewrite <- (app_nil_r (ended ts)), split_lines_ended by auto. reflexivity.
      - assert (Hts : ts <> []) by (intros ->; apply Hne; inv HF; reflexivity).
        destruct (exists_last Hts) as (l' & x & ->). rewrite app_nil_r.
        rewrite ended_app in Ht. unfold ended in Ht at 2. cbn [map concat] in Ht.
        rewrite app_nil_r, app_assoc in Ht. apply app_inv_tail in Ht. subst t.
        rewrite split_lines_ended by (intros w Hw; apply N10; apply in_app_iff; auto).
        rewrite split_lines_one; [reflexivity| |].
        + apply Forall2_app_inv_r in HF. destruct HF as (s1 & s2 & _ & F2 & _). inversion F2 as [|s0 y l0 m0 Hs ? E1 E2].
          destruct s0 as ((k, p), name). apply symbol_piece_eq in Hs.
          destruct Hs as (_ & _ & u & _ & ->). discriminate.
        + apply N10. apply in_app_iff. right; left; auto. }
    rewrite E.
    destruct (symbols_backward c [] Hwf syms ts [] a HF Hr HI) as (a1 & E1 & R1 & I1 & C1).
    exists a1. rewrite E1. split; [reflexivity|]. split; [exact R1|]. split; [exact I1|].
    cbn [kept_comment]. congruence.
Qed.

(* ---------------------------------------------------------------------- the file *)

Lemma file_iff v c syms o : file v c syms o <->
  circuit_wf c /\ vectors_fit c /\ exists t t4, circuit_text c t /\ tail_text c syms o t4 /\ v = t ++ t4.
Proof.
  unfold file, circuit_text. split.
  - intros (H1 & H2 & t0 & t1 & t2 & t3 & t4 & P0 & P1 & P2 & P3 & P4 & ->). split; auto. split; auto.
    exists (t0 ++ t1 ++ t2 ++ t3), t4. split; [exists t0, t1, t2, t3; auto 6|]. split; auto.
    rewrite <- !app_assoc. reflexivity.
  - intros (H1 & H2 & t & t4 & (t0 & t1 & t2 & t3 & P0 & P1 & P2 & P3 & ->) & P4 & ->).
    split; auto. split; auto. exists t0, t1, t2, t3, t4. rewrite <- !app_assoc. auto 8.
Qed.

Lemma accepted_file v a : Forall (fun x => x < 256) v -> from_vector_of_bytes v = Ok a ->
  exists c syms o, file v c syms o.
Proof.
  intros HB H. rewrite parse_eq in H. apply bind_ok in H. destruct H as ((c & rest) & E & H).
  apply parse_circuit_forward in E; auto. destruct E as (Hwf & Hv & t & Ht & ->).
  apply bind_ok in H. destruct H as (a1 & E1 & _).
  destruct (tail_forward c _ _ _ (graph_represents c) E1) as (syms & o & Ho).
  exists c, syms, o. apply file_iff. split; auto. split; auto. exists t, rest. auto.
Qed.

Lemma file_accepted v c syms o : Forall (fun x => x < 256) v -> file v c syms o ->
  exists a, from_vector_of_bytes v = Ok a /\ represents a c /\ sym_inv c syms a /\
    comments a = kept_comment o.
Proof.
  intros HB H. apply file_iff in H. destruct H as (Hwf & Hv & t & t4 & Ht & H4 & ->).
  rewrite parse_eq, (parse_circuit_backward c t t4) by auto. cbn [bind].
  destruct (tail_backward c (graph c) syms o t4 (graph_represents c) Hwf (graph_sym_inv c) eq_refl H4)
    as (a & E & R & I & C).
  exists a. rewrite E. cbn [bind]. rewrite (check_aig_ok _ c) by auto. auto.
Qed.

Lemma accepts_exactly v : Forall (fun x => x < 256) v ->
  ((exists a, from_vector_of_bytes v = Ok a) <-> exists c syms o, file v c syms o).
Proof.
  intros HB. split.
  - intros (a & H). eapply accepted_file; eauto.
  - intros (c & syms & o & H). destruct (file_accepted _ _ _ _ HB H) as (a & E & _). eauto.
Qed.

Lemma file_unambiguous v c c' syms syms' o o' : Forall (fun x => x < 256) v ->
  file v c syms o -> file v c' syms' o' -> c = c'.
Proof.
  intros HB H H'. destruct (file_accepted _ _ _ _ HB H) as (a & E & R & _).
  destruct (file_accepted _ _ _ _ HB H') as (a' & E' & R' & _).
  rewrite E in E'. inv E'. destruct (accepted_well_formed _ _ E) as (c0 & _ & _ & _ & Hq).
  rewrite (Hq _ R), (Hq _ R'). reflexivity.
Qed.

(* -------------------------------------------------------------------- the export *)

Lemma name_recorded a c syms k p : represents a c -> circuit_wf c -> sym_inv c syms a ->
  p < kind_count c k -> sym_field k (node_of a (target c k p)) = last_name c syms k (target c k p).
Proof.
  intros Hr Hwf HI Hp. assert (Hle : target c k p <= c_max c).
  { unfold target. assert (Hin : In (nth (N.to_nat p) (kind_list c k) 0) (kind_list c k)).
    { apply nth_In. rewrite kind_list_length. lia. }
    revert Hin. generalize (nth (N.to_nat p) (kind_list c k) 0). intros t Hin.
    destruct Hwf as (_ & W2 & W3 & W4 & _). rewrite Forall_forall in W2, W3, W4.
    destruct k; cbn [kind_list] in Hin; try (apply in_numbers in Hin; unfold c_max; lia);
      apply in_map_iff in Hin; destruct Hin as (l & <- & Hl); [apply W2|apply W3|apply W4]; auto. }
  destruct (node_at a c _ Hr Hle) as (n & En & _). rewrite (node_of_index _ _ _ En).
  apply index_ok in En. rewrite (HI k _ _ En), N2Nat.id. reflexivity.
Qed.

Lemma exported_nodup a c : NoDup (map fst (exported a c)).
Proof.
  unfold exported.
  assert (G : forall ks, NoDup ks -> NoDup (map fst (flat_map (fun k =>
    flat_map (fun p => named k p (sym_field k (node_of a (target c k p)))) (numbers 0 (kind_count c k))) ks))).
  { induction ks as [|k ks IH]; intros Hnd; [constructor|]. inv Hnd. cbn [flat_map].
    rewrite map_app. apply NoDup_app_intro; auto.
    - generalize (numbers_nodup 0 (kind_count c k)). generalize (numbers 0 (kind_count c k)).
      induction l as [|p l IHl]; intros Hl; [constructor|]. inv Hl. cbn [flat_map].
      rewrite map_app. apply NoDup_app_intro; auto.
      + destruct (sym_field _ _); cbn; repeat constructor; auto.
      + intros x Hx Hy. apply in_map_iff in Hx. destruct Hx as (s & <- & Hs).
        apply in_map_iff in Hy. destruct Hy as (s' & Es & Hs'). apply in_flat_map in Hs'.
        destruct Hs' as (p' & Hp' & Hs'). destruct (sym_field k (node_of a (target c k p))); [destruct Hs|].
        destruct Hs as [<-|[]]. destruct (sym_field k (node_of a (target c k p'))); [destruct Hs'|].
        destruct Hs' as [<-|[]]. injection Es as ->. contradiction.
    - intros x Hx Hy. apply in_map_iff in Hx. destruct Hx as (s & <- & Hs).
      apply in_map_iff in Hy. destruct Hy as (s' & Es & Hs').
      apply in_flat_map in Hs. destruct Hs as (p & _ & Hs).
      apply in_flat_map in Hs'. destruct Hs' as (k' & Hk' & Hs'). apply in_flat_map in Hs'.
      destruct Hs' as (p' & _ & Hs'). destruct (sym_field k (node_of a (target c k p))); [destruct Hs|].
      destruct Hs as [<-|[]]. destruct (sym_field k' (node_of a (target c k' p'))); [destruct Hs'|].
      destruct Hs' as [<-|[]]. injection Es as -> ->. contradiction. }
  apply G. unfold all_kinds. repeat constructor; cbn; intuition discriminate.
Qed.

Lemma last_name_entry c syms k p name : name <> [] ->
  (last_name c syms k (target c k p) = name <-> last_entry c syms k p name).
Proof.
  intros Hne. induction syms as [|((k', p'), name') syms IH] using rev_ind.
  { split; [intros <-; contradiction|]. intros (b & p' & af & E & _). destruct b; discriminate. }
  rewrite last_name_snoc. destruct (kind_eqb k k' && (target c k' p' =? target c k p)) eqn:E.
  - apply andb_true_iff in E. destruct E as (E1 & E2). apply kind_eqb_spec in E1. subst k'.
    apply N.eqb_eq in E2. split.
    + intros ->. exists syms, p', []. split; [reflexivity|]. split; [exact E2|]. intros q other [].
    + intros (b & q & af & Es & Hq & Ha). destruct af as [|z af0] eqn:Ef.
      * apply app_inj_tail in Es. destruct Es as (_ & Es). congruence.
      * exfalso. rewrite <- Ef in *. assert (n : af <> []) by (rewrite Ef; discriminate). clear Ef.
        destruct (exists_last n) as (af' & z' & ->).
        rewrite app_comm_cons, app_assoc in Es. apply app_inj_tail in Es. destruct Es as (_ & <-).
        apply (Ha p' name'); [|exact E2]. apply in_app_iff. right; left; reflexivity.
  - rewrite IH. split.
    + intros (b & q & af & -> & Hq & Ha). exists b, q, (af ++ [(k', p', name')]).
      split; [rewrite <- app_assoc; reflexivity|]. split; auto.
      intros q' other Hin. apply in_app_iff in Hin. destruct Hin as [Hin|[Hin|[]]]; [eauto|].
      injection Hin as -> -> ->. intros X. rewrite X, N.eqb_refl, andb_true_r in E.
      assert (Y : kind_eqb k k = true) by (apply kind_eqb_spec; auto). congruence.
    + intros (b & q & af & Es & Hq & Ha). destruct af as [|z af0] eqn:Ef.
      * apply app_inj_tail in Es. destruct Es as (_ & Es). injection Es as -> -> ->.
        rewrite Hq, N.eqb_refl, andb_true_r in E.
        assert (Y : kind_eqb k k = true) by (apply kind_eqb_spec; auto). congruence.
      * rewrite <- Ef in *. assert (n : af <> []) by (rewrite Ef; discriminate). clear Ef.
        destruct (exists_last n) as (af' & z' & ->).
        rewrite app_comm_cons, app_assoc in Es. apply app_inj_tail in Es. destruct Es as (-> & <-).
        exists b, q, af'. split; auto. split; auto. intros q' other Hin. apply (Ha q' other).
        apply in_app_iff. auto.
Qed.

Lemma closing_comment text : exists t', closing (kept_comment (Some text)) = bs "c" ++ [10] ++ t' /\
  same_but_line_ends t' (without_nul text).
Proof.
  cbn [kept_comment]. destruct (list_eq_dec N.eq_dec text []) as [->|Hne].
  { exists []. split; [reflexivity|]. exists 0%nat, 0%nat. reflexivity. }
  pose proof (join_split_lines text [] (fun X => match X with end) Hne) as J. cbn [app] in J.
  pose proof (split_lines_nonempty text [] Hne) as Hnl.
  destruct (split_lines [] text) as [|w ws]; [contradiction|].
  change (join [10] ([99] :: w :: ws)) with (99 :: 10 :: join [10] (w :: ws)).
  set (Y := join [10] (w :: ws)) in *.
  change (without_nul (99 :: 10 :: Y)) with (99 :: 10 :: without_nul Y).
  assert (S : exists n, without_nul Y ++ repeat 10 n = without_nul text).
  { destruct J as [<-|<-].
    - exists 0%nat. apply app_nil_r.
    - exists 1%nat. unfold without_nul. rewrite filter_app. reflexivity. }
  destruct S as (n & S). unfold closing. destruct (_ =? 10).
  - exists (without_nul Y). split; [reflexivity|]. exists n, 0%nat. rewrite app_nil_r. auto.
  - exists (without_nul Y ++ [10]). split; [reflexivity|]. exists n, 1%nat. rewrite <- S, <- !app_assoc.
    f_equal. change [10] with (repeat 10 1). rewrite <- !repeat_app. f_equal. lia.
Qed.

Lemma file_export v c syms o : Forall (fun x => x < 256) v -> file v c syms o ->
  exists a head table ending, from_vector_of_bytes v = Ok a /\ represents a c /\
    get_aag_string a = Ok (head ++ symbol_text table ++ ending) /\
    read_aag head = Some (aag_of c, [[]]) /\
    NoDup (map fst table) /\
    (forall k p name, In (k, p, name) table <->
       p < kind_count c k /\ name <> [] /\ last_entry c syms k p name) /\
    match o with
    | None => ending = []
    | Some text => exists t', ending = bs "c" ++ [10] ++ t' /\ same_but_line_ends t' (without_nul text)
    end.
Proof.
  intros HB H. pose proof H as (Hwf & (Hfit & _) & _).
  destruct (file_accepted _ _ _ _ HB H) as (a & E & R & I & C).
  exists a, (ended (aag_lines c)), (exported a c), (closing (comments a)).
  split; auto. split; auto. split.
  { rewrite symbol_text_ended, <- sym_lines_exported. apply get_aag_text; auto. }
  split. { rewrite <- (app_nil_r (ended (aag_lines c))). apply read_aag_lines. }
  split. { apply exported_nodup. }
  split.
  { intros k p name. rewrite in_exported. split.
    - intros (Hp & Hne & En). split; auto. split; auto. apply last_name_entry; auto.
      rewrite <- En. symmetry. eapply name_recorded; eauto.
    - intros (Hp & Hne & En). split; auto. split; auto. apply last_name_entry in En; auto.
      rewrite <- En. eapply name_recorded; eauto. }
  rewrite C. destruct o as [text|]; [apply closing_comment|reflexivity].
Qed.

(* ------------------------------------------------------------ a concrete case *)

(** Signs, leading zeros, a delta code longer than needed, two names for one variable, a
    name outside ASCII, and no line end after the comment line. *)
Definition odd_file : bytes :=
  bs "aig +3 01 1 2 1" ++ [10] ++ bs "+6 0" ++ [10] ++ bs "006" ++ [10] ++ bs "6" ++ [10] ++
  [130; 0] ++ [2] ++ bs "o0 first" ++ [10] ++ bs "o+1 " ++ [195; 169] ++ [10] ++ bs "c".
Definition odd_circuit : circuit := mkCircuit 1 [(6, 0)] [6; 6] [] [] [(4, 2)].
Definition odd_symbols : list symbol := [(K_output, 0, bs "first"); (K_output, 1, [195; 169])].


Lemma odd_file_ok : file odd_file odd_circuit odd_symbols (Some []).
Proof.
  assert (NUM : forall n d, read_number d = Some n -> n < 2 ^ 64 -> numeral n d /\ numeral n (43 :: d)).
  { intros n d E L. split; exists d; auto. }
  split; [apply circuit_wfb_ok; vm_compute; reflexivity|].
  split; [vm_compute; repeat split; discriminate|].
  exists (line [bs "aig"; bs "+3"; bs "01"; bs "1"; bs "2"; bs "1"]), (line [bs "+6"; bs "0"]),
    (line [bs "006"] ++ line [bs "6"]), ([130; 0] ++ [2]),
    (bs "o0 first" ++ [10] ++ bs "o+1 " ++ [195; 169] ++ [10] ++ bs "c").
  split. { exists 5%nat, [bs "+3"; bs "01"; bs "1"; bs "2"; bs "1"]. split; [lia|].
    split; [repeat constructor|]. split; [|reflexivity].
    repeat apply Forall2_cons; try apply Forall2_nil; first [apply (NUM _ (bs "3")); reflexivity|apply NUM; reflexivity]. }
  split. { exists [line [bs "+6"; bs "0"]]. split; [|reflexivity]. repeat apply Forall2_cons; try apply Forall2_nil.
    exists (bs "+6"). split; [apply (NUM _ (bs "6")); reflexivity|]. right. exists (bs "0").
    split; [apply NUM; reflexivity|reflexivity]. }
  split. { exists [line [bs "006"]; line [bs "6"]]. split; [|reflexivity].
    repeat apply Forall2_cons; try apply Forall2_nil; eexists; (split; [|reflexivity]); apply NUM; reflexivity. }
  split. { exists [[130; 0] ++ [2]]. split; [|reflexivity]. repeat apply Forall2_cons; try apply Forall2_nil.
    exists [130; 0], [2]. split; [reflexivity|]. split; (split; [reflexivity|]; split; [cbn; lia|reflexivity]). }
  split; [|reflexivity].
  exists [bs "o0 first"; bs "o+1 " ++ [195; 169]]. split.
  { repeat apply Forall2_cons; try apply Forall2_nil.
    - split; [reflexivity|]. split.
      + split; [apply ascii_unicode; repeat constructor|]. split; cbn; intuition discriminate.
      + exists (bs "0"). split; [apply NUM; reflexivity|reflexivity].
    - split; [reflexivity|]. split.
      + split; [exists [233]; split; [|reflexivity]; repeat constructor; unfold scalar; lia|].
        split; cbn; intuition discriminate.
      + exists (bs "+1"). split; [apply (NUM _ (bs "1")); reflexivity|reflexivity]. }
  split; [exists []; split; [constructor|reflexivity]|]. right. split; reflexivity.
Qed.

Lemma odd_names k p name : last_entry odd_circuit odd_symbols k p name ->
  kind_count odd_circuit k <= p \/ name = [195; 169].
Proof.
  intros (b & p' & af & E & Ht & Ha). unfold odd_symbols in E.
  destruct b as [|x [|y b]]; cbn [app] in E.
  - injection E as <- <- <- <-. left.
    destruct (N.leb_spec (kind_count odd_circuit K_output) p) as [H|H]; auto. exfalso.
    apply (Ha 1 [195; 169]); [left; reflexivity|]. rewrite <- Ht. reflexivity.
  - injection E as <- <- <- <- <-. auto.
  - destruct b; discriminate.
Qed.
