(** Lemmas about decimal text, words, lines, and DIMACS printing. *)
From Coq Require Import Sorted.
From Verif Require Import Base Formulas FormulaLogic Solvers Spec SpecText Tac FormulasFacts.
Open Scope N_scope.
Import String.StringSyntax.
Arguments bs s%string_scope.

(* ---------------------------------------------------------------- decimal *)

Definition digits_value (s : bytes) (n : N) : N := fold_left (fun n c => 10 * n + (c - 48)) s n.

Lemma digits_value_app s t n : digits_value (s ++ t) n = digits_value t (digits_value s n).
Proof. apply fold_left_app. Qed.

Lemma dec_aux_spec f n acc : n < 2 ^ N.of_nat f -> (0 < f)%nat ->
  exists ds, dec_aux f n acc = ds ++ acc /\ ds <> [] /\ forallb is_digit ds = true /\
    digits_value ds 0 = n.
Proof.
  revert n acc; induction f as [|f IH]; intros n acc Hn Hf; [lia|].
  simpl. destruct (n <? 10) eqn:E.
  - exists [48 + n mod 10]. repeat split; auto; try discriminate.
    + simpl. unfold is_digit. rewrite !andb_true_iff. lia.
    + unfold digits_value; simpl. rewrite N.mod_small by lia. lia.
  - assert (Hp : 2 ^ N.of_nat (S f) = 2 * 2 ^ N.of_nat f).
    { rewrite Nat2N.inj_succ, N.pow_succ_r'. lia. }
    assert (Hlt : n / 10 < 2 ^ N.of_nat f).
    { apply N.div_lt_upper_bound; lia. }
    assert (Hf' : (0 < f)%nat).
    { destruct f; [|lia]. change (2 ^ N.of_nat 1) with 2 in Hn. lia. }
    destruct (IH (n / 10) ((48 + n mod 10) :: acc) Hlt Hf') as (ds & E1 & E2 & E3 & E4).
    exists (ds ++ [48 + n mod 10]). rewrite E1, <- app_assoc. repeat split; auto.
    + destruct ds; discriminate.
    + rewrite forallb_app, E3. simpl. unfold is_digit. rewrite !andb_true_iff. lia.
    + rewrite digits_value_app, E4. unfold digits_value; simpl. lia.
Qed.

Lemma size_nat_N n : N.of_nat (N.size_nat n) = N.size n.
Proof.
  destruct n as [|p]; auto. simpl.
  induction p; auto; cbn [Pos.size_nat Pos.size]; rewrite Nat2N.inj_succ, IHp; reflexivity.
Qed.

Lemma dec_spec n : dec n <> [] /\ forallb is_digit (dec n) = true /\ digits_value (dec n) 0 = n.
Proof.
  unfold dec. destruct (dec_aux_spec (S (N.size_nat n)) n []) as (ds & E1 & E2 & E3 & E4).
  - rewrite Nat2N.inj_succ, size_nat_N, N.pow_succ_r'. pose proof (N.size_gt n). lia.
  - lia.
  - rewrite E1, app_nil_r. auto.
Qed.

Lemma dec_nonempty n : nonempty (dec n) = true.
Proof. destruct (dec_spec n) as (H & _). destruct (dec n); auto. Qed.

Lemma read_number_dec n : read_number (dec n) = Some n.
Proof.
  destruct (dec_spec n) as (H & H1 & H2). unfold read_number.
  rewrite dec_nonempty, H1. change (Some (digits_value (dec n) 0) = Some n). congruence.
Qed.

Lemma dec_digit n c : In c (dec n) -> 48 <= c <= 57.
Proof.
  destruct (dec_spec n) as (_ & H1 & _). rewrite forallb_forall in H1. intros H.
  apply H1 in H. unfold is_digit in H. lia.
Qed.

Lemma dec_inj n m : dec n = dec m -> n = m.
Proof. intros H. pose proof (read_number_dec n). rewrite H, read_number_dec in H0. congruence. Qed.

(* ------------------------------------------------------------------- splitting *)

Lemma split_on_nosep sep s : ~ In sep s -> split_on sep s = [s].
Proof.
  induction s as [|c s IH]; simpl; intros H; auto.
  destruct (c =? sep) eqn:E; [exfalso; apply H; left; lia|].
  rewrite IH; auto.
Qed.

Lemma split_on_app sep w s : ~ In sep w -> split_on sep (w ++ sep :: s) = w :: split_on sep s.
Proof.
  induction w as [|c w IH]; simpl; intros H.
  - rewrite N.eqb_refl; auto.
  - destruct (c =? sep) eqn:E; [exfalso; apply H; left; lia|].
    rewrite IH; auto.
Qed.

Lemma split_on_join sep ws : ws <> [] -> (forall w, In w ws -> ~ In sep w) ->
  split_on sep (join [sep] ws) = ws.
Proof.
  induction ws as [|w ws IH]; [congruence|]. intros _ H.
  destruct ws as [|w' ws].
  - simpl. apply split_on_nosep, H; left; auto.
  - cbn [join]. simpl app. rewrite split_on_app by (apply H; left; auto).
    f_equal. apply IH; [discriminate|]. intros x Hx; apply H; right; auto.
Qed.

Lemma filter_all {A} (p : A -> bool) l : (forall x, In x l -> p x = true) -> filter p l = l.
Proof.
  induction l as [|x l IH]; simpl; intros H; auto.
  rewrite H by auto. f_equal; auto.
Qed.

Lemma words_of_join ws : ws <> [] -> (forall w, In w ws -> ~ In 32 w /\ nonempty w = true) ->
  words_of (join [32] ws) = ws.
Proof.
  intros H1 H2. unfold words_of. rewrite split_on_join; auto.
  - apply filter_all. intros w Hw; apply H2; auto.
  - intros w Hw; apply H2; auto.
Qed.

Lemma dec_no c n : (c < 48 \/ 57 < c) -> ~ In c (dec n).
Proof. intros H1 H2. apply dec_digit in H2. lia. Qed.

Lemma read_all_map {A B C} (f : B -> option C) (g : A -> B) (h : A -> C) l :
  (forall x, In x l -> f (g x) = Some (h x)) -> read_all f (map g l) = Some (map h l).
Proof.
  induction l as [|x l IH]; simpl; intros H; auto.
  rewrite H, IH by auto. reflexivity.
Qed.

(* --------------------------------------------------------------------- literals *)

Lemma literal_display_alt l :
  literal_display l = (if N.odd l then [45] else []) ++ dec (l / 2).
Proof.
  unfold literal_display. rewrite is_negated_odd, get_number_div. destruct (N.odd l); reflexivity.
Qed.

Lemma read_integer_dec n : read_integer (dec n) = Some (Z.of_N n).
Proof.
  unfold read_integer. pose proof (dec_no 45 n ltac:(lia)) as Hno.
  rewrite read_number_dec. destruct (dec n) as [|c ds] eqn:E; auto.
  assert (c <> 45) by (intros ->; apply Hno; left; auto).
  destruct c as [|p]; auto. do 6 (destruct p; auto). congruence.
Qed.

Lemma read_integer_literal l : read_integer (literal_display l) = Some (dimacs_int l).
Proof.
  rewrite literal_display_alt. unfold dimacs_int. destruct (N.odd l); simpl app.
  - cbn [read_integer]. rewrite read_number_dec. reflexivity.
  - apply read_integer_dec.
Qed.

Lemma literal_display_chars l c : In c (literal_display l) -> c = 45 \/ 48 <= c <= 57.
Proof.
  rewrite literal_display_alt, in_app_iff. intros [H|H].
  - destruct (N.odd l); simpl in H; intuition.
  - right; eapply dec_digit; eauto.
Qed.

Lemma literal_display_nonempty l : nonempty (literal_display l) = true.
Proof.
  rewrite literal_display_alt. pose proof (dec_nonempty (l / 2)).
  destruct (N.odd l), (dec (l / 2)); auto.
Qed.

Lemma join_snoc sep ws x : ws <> [] -> join sep ws ++ sep ++ x = join sep (ws ++ [x]).
Proof.
  induction ws as [|w ws IH]; [congruence|]. intros _.
  destruct ws as [|w' ws]; [reflexivity|].
  change (join sep (w :: w' :: ws)) with (w ++ sep ++ join sep (w' :: ws)).
  change ((w :: w' :: ws) ++ [x]) with (w :: (w' :: ws) ++ [x]).
  rewrite <- !app_assoc, IH by discriminate. reflexivity.
Qed.

Lemma clause_display_words c :
  words_of (clause_display c) = map literal_display (sort N.leb (clause_lits c)) ++ [[48]].
Proof.
  unfold clause_display. change (bs " 0") with ([32] ++ [48]). change (bs " ") with [32].
  destruct (sort N.leb (clause_lits c)) as [|l ls] eqn:E; [reflexivity|].
  rewrite join_snoc by discriminate.
  apply words_of_join; [destruct (map literal_display (l :: ls)); discriminate|].
  intros w Hw. apply in_app_iff in Hw as [Hw|[<-|[]]].
  - apply in_map_iff in Hw as (x & <- & _). split; [|apply literal_display_nonempty].
    intros H; apply literal_display_chars in H. lia.
  - split; auto. simpl. lia.
Qed.

Lemma end_at_zero_snoc zs : (forall z, In z zs -> z <> 0%Z) -> end_at_zero (zs ++ [0%Z]) = Some zs.
Proof.
  induction zs as [|z zs IH]; intros H; auto.
  change ((z :: zs) ++ [0%Z]) with (z :: (zs ++ [0%Z])).
  cbn [end_at_zero]. destruct (zs ++ [0%Z]) eqn:E; [destruct zs; discriminate|].
  rewrite IH by (intros; apply H; right; auto).
  assert (z <> 0%Z) by (apply H; left; auto). destruct (z =? 0)%Z eqn:E0; [lia|]. reflexivity.
Qed.

Lemma dimacs_int_nonzero l : lit_legal l -> dimacs_int l <> 0%Z.
Proof. unfold lit_legal, dimacs_int. rewrite odd_mod. destruct (l mod 2 =? 1) eqn:E; lia. Qed.

Lemma dimacs_int_inj l l' : lit_legal l -> lit_legal l' -> dimacs_int l = dimacs_int l' -> l = l'.
Proof.
  unfold lit_legal, dimacs_int. rewrite !odd_mod.
  destruct (l mod 2 =? 1) eqn:E, (l' mod 2 =? 1) eqn:E'; lia.
Qed.

Lemma read_all_app {A B} (f : A -> option B) l1 l2 r1 r2 :
  read_all f l1 = Some r1 -> read_all f l2 = Some r2 -> read_all f (l1 ++ l2) = Some (r1 ++ r2).
Proof.
  revert r1; induction l1 as [|x l1 IH]; simpl; intros r1 H1 H2; [inv H1; auto|].
  destruct (f x); [|discriminate]. destruct (read_all f l1); [|discriminate]. inv H1.
  rewrite (IH l eq_refl H2). reflexivity.
Qed.

Lemma read_clause_line_display c : api_clause c -> clause_legal c ->
  read_clause_line (clause_display c) = Some (map dimacs_int (clause_lits c)).
Proof.
  intros Ha Hl. unfold read_clause_line. rewrite clause_display_words.
  apply api_clause_sorted in Ha. rewrite sortN_idem by auto.
  rewrite (read_all_app _ _ _ (map dimacs_int (clause_lits c)) [0%Z]).
  - apply end_at_zero_snoc. intros z Hz. apply in_map_iff in Hz as (l & <- & Hin).
    apply dimacs_int_nonzero. unfold clause_legal in Hl. rewrite Forall_forall in Hl. auto.
  - apply read_all_map. intros; apply read_integer_literal.
  - reflexivity.
Qed.

Lemma clause_display_chars c x : In x (clause_display c) -> x = 32 \/ x = 45 \/ 48 <= x <= 57.
Proof.
  unfold clause_display. rewrite in_app_iff. intros [H|H].
  - revert H. generalize (sort N.leb (clause_lits c)) as ls.
    induction ls as [|l ls IH]; [intros []|].
    simpl map. destruct ls as [|l' ls].
    + simpl. intros H. apply literal_display_chars in H. lia.
    + cbn [map join]. rewrite !in_app_iff. intros [H|[H|H]].
      * apply literal_display_chars in H. lia.
      * simpl in H. lia.
      * apply IH. exact H.
  - simpl in H. lia.
Qed.

Lemma clause_display_nonempty c : nonempty (clause_display c) = true.
Proof.
  unfold clause_display. destruct (join _ _); reflexivity.
Qed.

(* ------------------------------------------------------------------------ clauses order *)

Lemma list_cmp_eq a b : list_cmp a b = Eq <-> a = b.
Proof.
  revert b; induction a as [|x a IH]; destruct b as [|y b]; simpl; split; try congruence; auto.
  - destruct (x ?= y) eqn:E; try discriminate. intros H. apply IH in H.
    apply N.compare_eq_iff in E. congruence.
  - intros H; inv H. rewrite N.compare_refl. apply IH; auto.
Qed.

Lemma list_cmp_antisym a b : list_cmp b a = CompOpp (list_cmp a b).
Proof.
  revert b; induction a as [|x a IH]; destruct b as [|y b]; simpl; auto.
  rewrite N.compare_antisym. destruct (x ?= y) eqn:E; simpl; auto.
Qed.

Lemma list_cmp_trans a b c : list_cmp a b <> Gt -> list_cmp b c <> Gt -> list_cmp a c <> Gt.
Proof.
  revert b c; induction a as [|x a IH]; destruct b as [|y b], c as [|z c]; simpl; try congruence.
  destruct (N.compare_spec x y), (N.compare_spec y z), (N.compare_spec x z); subst;
    try congruence; try lia; eauto.
Qed.

Lemma print_leb_total x y : clause_print_leb x y = true \/ clause_print_leb y x = true.
Proof.
  unfold clause_print_leb, clause_cmp. rewrite (N.compare_antisym (clause_len x)).
  destruct (clause_len x ?= clause_len y) eqn:E; simpl; auto.
  rewrite (list_cmp_antisym (clause_lits x)). destruct (list_cmp _ _); simpl; auto.
Qed.

Lemma print_leb_spec x y : clause_print_leb x y = true <->
  clause_len x < clause_len y \/
  (clause_len x = clause_len y /\ list_cmp (clause_lits x) (clause_lits y) <> Gt).
Proof.
  unfold clause_print_leb, clause_cmp. destruct (N.compare_spec (clause_len x) (clause_len y)) as [E|E|E].
  - destruct (list_cmp _ _); split; intros H; auto; try congruence; try (right; split; congruence).
    destruct H as [H|[H H']]; [lia|congruence].
  - split; auto.
  - split; [discriminate|]. intros [H|[H _]]; lia.
Qed.

Lemma print_leb_trans x y z :
  clause_print_leb x y = true -> clause_print_leb y z = true -> clause_print_leb x z = true.
Proof.
  rewrite !print_leb_spec. intros [H1|[H1 H1']] [H2|[H2 H2']]; try (left; lia).
  right; split; [lia|]. eapply list_cmp_trans; eauto.
Qed.

Lemma print_leb_antisym x y :
  clause_print_leb x y = true -> clause_print_leb y x = true -> x = y.
Proof.
  rewrite !print_leb_spec. intros [H1|[H1 H1']] [H2|[H2 H2']]; try lia.
  rewrite list_cmp_antisym in H2'. destruct x as [x], y as [y]; simpl in *.
  destruct (list_cmp x y) eqn:E; simpl in *; try congruence.
  apply list_cmp_eq in E. congruence.
Qed.

Lemma print_sort_perm l1 l2 : Permutation l1 l2 ->
  sort clause_print_leb l1 = sort clause_print_leb l2.
Proof.
  intros H. apply sort_eq_iff; auto using print_leb_total, print_leb_antisym.
  exact print_leb_trans.
Qed.

(* -------------------------------------------------------------------------- DIMACS *)

Lemma cnf_display_order o1 o2 f : order_ok o1 -> order_ok o2 -> cnf_display o1 f = cnf_display o2 f.
Proof.
  intros H1 H2. unfold cnf_display. do 5 f_equal.
  rewrite (print_sort_perm (o1 (cnf_clauses f)) (o2 (cnf_clauses f))); auto.
  rewrite (H1 _), (H2 _); auto.
Qed.

Lemma header_words m n :
  bs "p cnf " ++ dec m ++ bs " " ++ dec n = join [32] [[112]; [99; 110; 102]; dec m; dec n].
Proof. reflexivity. Qed.

Lemma read_dimacs_display order f : order_ok order -> api_cnf f -> cnf_legal f ->
  exists cs, read_dimacs (cnf_display order f) = Some (cnf_max f, cnf_len f, cs) /\
    Permutation cs (map (fun c => map dimacs_int (clause_lits c)) (cnf_clauses f)).
Proof.
  intros Ho Ha Hl.
  set (cl := sort clause_print_leb (order (cnf_clauses f))).
  assert (Hp : Permutation cl (cnf_clauses f)) by (unfold cl; rewrite sort_perm; apply Ho).
  exists (map (fun c => map dimacs_int (clause_lits c)) cl). split; [|apply Permutation_map; auto].
  unfold read_dimacs, cnf_display, lines_of. fold cl.
  replace (bs "p cnf " ++ dec (cnf_max f) ++ bs " " ++ dec (cnf_len f) ++ [10] ++
      join [10] (map clause_display cl))
    with ((bs "p cnf " ++ dec (cnf_max f) ++ bs " " ++ dec (cnf_len f)) ++ 10 ::
      join [10] (map clause_display cl))
    by (rewrite <- !app_assoc; reflexivity).
  rewrite split_on_app.
  2:{ rewrite !in_app_iff. intros H.
      repeat destruct H as [H|H]; try (apply dec_digit in H; lia); simpl in H; lia. }
  rewrite header_words, words_of_join by
    (try discriminate; intros w Hw; simpl in Hw;
     repeat destruct Hw as [<-|Hw]; try (destruct Hw);
     split; auto using dec_nonempty; try (apply dec_no; lia); simpl; lia).
  rewrite !read_number_dec.
  assert (Hf : filter nonempty (split_on 10 (join [10] (map clause_display cl))) = map clause_display cl).
  { destruct cl as [|c0 cl0] eqn:Ecl; [reflexivity|]. rewrite <- Ecl in *.
    rewrite split_on_join.
    - apply filter_all. intros x Hx. apply in_map_iff in Hx as (c & <- & _).
      apply clause_display_nonempty.
    - rewrite Ecl; discriminate.
    - intros w Hw. apply in_map_iff in Hw as (c & <- & _).
      intros H. apply clause_display_chars in H. lia. }
  rewrite Hf.
  rewrite (read_all_map _ clause_display (fun c => map dimacs_int (clause_lits c))); auto.
  intros c Hc. apply (Permutation_in _ Hp) in Hc. apply read_clause_line_display.
  - apply api_cnf_clauses in Ha. rewrite Forall_forall in Ha; auto.
  - eapply cnf_legal_in; eauto.
Qed.

Lemma map_dimacs_inj l1 l2 : Forall lit_legal l1 -> Forall lit_legal l2 ->
  map dimacs_int l1 = map dimacs_int l2 -> l1 = l2.
Proof.
  intros H1; revert l2; induction H1; destruct l2; simpl; intros H2 E; try discriminate; auto.
  inv E. inv H2. f_equal; auto using dimacs_int_inj.
Qed.

Lemma cnf_display_eq o1 o2 f g : order_ok o1 -> order_ok o2 ->
  api_cnf f -> api_cnf g -> cnf_legal f -> cnf_legal g ->
  (cnf_display o1 f = cnf_display o2 g <-> cnf_eqb f g = true).
Proof.
  intros Ho1 Ho2 Hf Hg Lf Lg.
  rewrite cnf_eqb_spec by auto using api_cnf_nodup. split.
  - intros E. destruct (read_dimacs_display o1 f Ho1 Hf Lf) as (cs & E1 & P1).
    destruct (read_dimacs_display o2 g Ho2 Hg Lg) as (cs' & E2 & P2).
    rewrite E, E2 in E1. inv E1.
    assert (HP : Permutation (map (fun c => map dimacs_int (clause_lits c)) (cnf_clauses f))
                   (map (fun c => map dimacs_int (clause_lits c)) (cnf_clauses g))).
    { rewrite <- P1, <- P2; auto. }
    assert (G : forall f g, cnf_legal f -> cnf_legal g ->
      Permutation (map (fun c => map dimacs_int (clause_lits c)) (cnf_clauses f))
                   (map (fun c => map dimacs_int (clause_lits c)) (cnf_clauses g)) ->
      forall c, In c (cnf_clauses f) -> In c (cnf_clauses g)).
    { intros f' g' Lf' Lg' HP' c Hc.
      assert (Hi : In (map dimacs_int (clause_lits c))
                (map (fun c => map dimacs_int (clause_lits c)) (cnf_clauses g'))).
      { eapply Permutation_in; [exact HP'|]. apply in_map_iff; exists c; auto. }
      apply in_map_iff in Hi as (d & Ed & Hd).
      apply map_dimacs_inj in Ed; [|apply (cnf_legal_in g'); auto|apply (cnf_legal_in f'); auto].
      destruct c, d; simpl in *; subst; auto. }
    intros c; split; apply G; auto. symmetry; auto.
  - intros H.
    assert (HP : Permutation (cnf_clauses f) (cnf_clauses g)).
    { apply NoDup_Permutation; auto using api_cnf_nodup. }
    unfold cnf_display, cnf_len, lenN. rewrite (Permutation_length HP).
    rewrite !cnf_max_max_var, (max_var_same _ _ H) by auto. do 5 f_equal.
    rewrite (print_sort_perm (o1 (cnf_clauses f)) (o2 (cnf_clauses g))); auto.
    rewrite (Ho1 _), (Ho2 _); auto.
Qed.
