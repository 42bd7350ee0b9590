(** The parser accepts exactly the files of SpecFile.v: header, lines and gates. *)
From Verif Require Import Base Aig AigParse Spec SpecAig SpecText SpecAiger SpecFile Tac TextFacts
  AigFacts SimFacts ParseFacts EncodeFacts SymbolFacts FileFacts FormulasFacts.
Open Scope N_scope.
Import String.StringSyntax.
Arguments bs s%string_scope.

(* ---------------------------------------------------------------------- deltas *)

Lemma byte_high ch : ch < 256 -> N.land ch 128 = 0 -> ch < 128.
Proof.
  intros H1 H2. destruct (N.lt_ge_cases ch 128); auto.
  destruct (byte_facts (ch - 128)) as (_ & B2 & _); [lia|].
  replace (128 + (ch - 128)) with ch in B2 by lia. congruence.
Qed.

Lemma read_loop_iff : forall fuel i delta ch rest d rest',
  (i + fuel = 5)%nat -> Forall (fun x => x < 256) (ch :: rest) ->
  delta < 2 ^ (7 * N.of_nat i) ->
  (read_delta_loop fuel (N.of_nat i) delta ch rest = Ok (d, rest') <->
   exists enc x, ch :: rest = enc ++ rest' /\ delta_value enc = Some x /\
     d = delta + x * 2 ^ (7 * N.of_nat i) /\ x < room i /\ (length enc <= S fuel)%nat).
Proof.
  induction fuel as [|fuel IH]; intros i delta ch rest d rest' Hi HF Hd;
    rewrite read_delta_loop_unfold.
  - assert (i = 5%nat) by lia. subst i. inv HF. split.
    + destruct (N.land ch 128 =? 0) eqn:E; [|discriminate]. cbn [negb]. intros H. binds.
      change (N.of_nat 5 =? 5) with true in E0. cbn [negb orb] in E0.
      exists [ch], ch. split; [reflexivity|]. split. { cbn. replace (ch <? 128) with true by lia. auto. }
      split. { apply lor_shiftl. auto. }
      split; [change (room 5) with 8; lia|cbn; lia].
    + intros (enc & x & E1 & E2 & -> & E4 & E5).
      destruct enc as [|y [|z enc]]; [discriminate| |cbn in E5; lia].
      cbn [app] in E1. inv E1. cbn [delta_value] in E2.
      destruct (y <? 128) eqn:Ey; [|discriminate]. injection E2 as <-.
      destruct (byte_facts y) as (B1 & _); [lia|]. rewrite B1. change (0 =? 0) with true. cbn [negb].
      change (N.of_nat 5 =? 5) with true. cbn [negb orb]. change (room 5) with 8 in E4.
      replace (y <? 8) with true by lia. cbn [assert_ bind]. rewrite lor_shiftl by auto. reflexivity.
  - pose proof HF as HF0. inv HF.
    assert (P7 : 2 ^ (7 * N.of_nat (S i)) = 128 * 2 ^ (7 * N.of_nat i)).
    { change 128 with (2 ^ 7). rewrite <- N.pow_add_r. f_equal. lia. }
    assert (Hr : room i = 128 * room (S i)).
    { unfold room. change 128 with (2 ^ 7). rewrite <- N.pow_add_r. f_equal. lia. }
    assert (Hr128 : 128 <= room i).
    { unfold room. change 128 with (2 ^ 7). apply N.pow_le_mono_r; lia. }
    assert (N5 : (N.of_nat i =? 5) = false) by lia.
    destruct (N.land ch 128 =? 0) eqn:E; cbn [negb].
    + assert (Hc : ch < 128) by (apply byte_high; auto; lia).
      rewrite N5. cbn [negb orb assert_ bind]. split.
      * intros H. binds. exists [ch], ch. split; [reflexivity|].
        split. { cbn. replace (ch <? 128) with true by lia. auto. }
        split. { apply lor_shiftl. auto. } split; [lia|cbn; lia].
      * intros (enc & x & E1 & E2 & -> & E4 & E5).
        destruct enc as [|y enc]; [discriminate|]. cbn [app] in E1. inv E1.
        cbn [delta_value] in E2. replace (y <? 128) with true in E2 by lia.
        destruct enc; [|discriminate]. injection E2 as <-. rewrite lor_shiftl by auto. reflexivity.
    + assert (Hch : 128 <= ch).
      { destruct (N.lt_ge_cases ch 128) as [X|X]; auto. destruct (byte_facts ch X) as (B & _). lia. }
      destruct rest as [|ch' rest0].
      { split; [discriminate|]. intros (enc & x & E1 & E2 & _).
        destruct enc as [|y enc]; [discriminate|]. cbn [app] in E1. inv E1.
        destruct enc; [|discriminate]. cbn [delta_value] in E2.
        replace (y <? 128) with false in E2 by lia. discriminate. }
      destruct (byte_facts (ch - 128)) as (_ & _ & B3); [lia|].
      replace (128 + (ch - 128)) with ch in B3 by lia.
      replace (N.of_nat i + 1) with (N.of_nat (S i)) by lia.
      rewrite B3, lor_shiftl by auto.
      rewrite IH by (try lia; auto; rewrite P7; apply delta_step_lt; lia). split.
      * intros (enc & x & E1 & E2 & E3 & E4 & E5).
        exists (ch :: enc), ((ch - 128) + 128 * x). split. { cbn [app]. congruence. }
        split. { destruct enc; [discriminate|]. cbn [delta_value] in *.
                 replace (ch <? 128) with false by lia. rewrite E2. reflexivity. }
        split. { rewrite E3, P7. ring. }
        split; [lia|cbn [length]; lia].
      * intros (enc & x & E1 & E2 & -> & E4 & E5).
        destruct enc as [|y enc]; [discriminate|]. cbn [app] in E1. inv E1.
        destruct enc as [|z enc].
        { cbn [delta_value] in E2. replace (y <? 128) with false in E2 by lia. discriminate. }
        cbn [delta_value] in E2. replace (y <? 128) with false in E2 by lia.
        change (match enc with [] => if z <? 128 then Some z else None
                 | _ :: _ => if z <? 128 then None
                   else option_map (fun n => z - 128 + 128 * n) (delta_value enc) end)
          with (delta_value (z :: enc)) in E2.
        destruct (delta_value (z :: enc)) as [x'|] eqn:Ex; [|discriminate]. injection E2 as <-.
        exists (z :: enc), x'. split; [assumption|]. split; [assumption|].
        split. { rewrite P7. ring. }
        split; [lia|cbn [length] in *; lia].
Qed.

Lemma read_delta_iff data d rest : Forall (fun x => x < 256) data ->
  (read_delta data = Ok (d, rest) <-> exists t, delta_piece d t /\ data = t ++ rest).
Proof.
  intros HF. destruct data as [|ch tl].
  { split; [discriminate|]. intros (t & (H & _) & E). destruct t; discriminate. }
  cbn [read_delta]. change 0 with (N.of_nat 0) at 1.
  rewrite (read_loop_iff 5 0 0) by (auto; reflexivity).
  change (7 * N.of_nat 0) with 0. change (2 ^ 0) with 1. change (room 0) with (2 ^ 38). split.
  - intros (enc & x & E1 & E2 & E3 & E4 & E5). replace d with x by lia.
    exists enc. unfold delta_piece. auto.
  - intros (t & (H1 & H2 & H3) & E). exists t, d. split; auto. split; auto. split; [lia|]. auto.
Qed.

Lemma forall_app_r {A} (P : A -> Prop) l1 l2 : Forall P (l1 ++ l2) -> Forall P l2.
Proof. intros H. apply Forall_app in H. tauto. Qed.

(* ----------------------------------------------------------------------- gates *)

(** The pieces of the gates from number [k] on; [base] is the number of inputs and latches. *)
Definition gate_at (base : N) (e : nat * (N * N)) (t : bytes) : Prop :=
  let '(j, (r0, r1)) := e in
  exists t0 t1, t = t0 ++ t1 /\ delta_piece (2 * (base + 1 + N.of_nat j) - r0) t0 /\
    delta_piece (r0 - r1) t1.

Lemma read_gates_iff base : forall n k data gs rest, Forall (fun x => x < 256) data ->
  (read_gates n (2 * (base + N.of_nat k)) data = Ok (gs, rest) <->
   length gs = n /\
   (forall j r0 r1, nth_error gs j = Some (r0, r1) -> r1 <= r0 < 2 * (base + 1 + N.of_nat (k + j))) /\
   exists t, pieces (gate_at base) (combine (seq k n) gs) t /\ data = t ++ rest).
Proof.
  induction n as [|n IH]; intros k data gs rest HF; cbn [read_gates].
  { split.
    - intros H. inv H. split; [reflexivity|]. split; [intros [|j] ? ?; discriminate|].
      exists []. split; [|reflexivity]. exists []. split; [constructor|reflexivity].
    - intros (H1 & _ & t & (ts & F & ->) & ->). destruct gs; [|discriminate]. inv F. reflexivity. }
  replace (2 * (base + N.of_nat k) + 2) with (2 * (base + N.of_nat (S k))) by lia. split.
  - intros H. binds. destruct a as (d0, data0). binds. destruct a0 as (d1, data1). binds.
    destruct a2 as (gs', data2). binds.
    apply read_delta_iff in E; auto. destruct E as (t0 & P0 & ->).
    apply forall_app_r in HF. apply read_delta_iff in E1; auto. destruct E1 as (t1 & P1 & ->).
    apply forall_app_r in HF. apply IH in E4; auto. destruct E4 as (L & W & t & (ts & F & ->) & ->).
    split; [simpl; auto|]. split.
    + intros [|j] r0 r1 Hj.
      * injection Hj as <- <-. lia.
      * apply W in Hj. replace (k + S j)%nat with (S k + j)%nat by lia. exact Hj.
    + exists (t0 ++ t1 ++ concat ts). rewrite <- !app_assoc. split; [|reflexivity].
      exists ((t0 ++ t1) :: ts). cbn [concat]. rewrite <- !app_assoc. split; [|reflexivity].
      cbn [seq combine]. constructor; [|exact F]. exists t0, t1. split; [reflexivity|].
      replace (2 * (base + 1 + N.of_nat k)) with (2 * (base + N.of_nat (S k))) by lia.
      remember (2 * (base + N.of_nat (S k))) as lhs.
      replace (lhs - (lhs - d0)) with d0 by lia.
      replace (lhs - d0 - (lhs - d0 - d1)) with d1 by lia. auto.
  - intros (L & W & t & (ts & F & ->) & ->). destruct gs as [|(r0, r1) gs]; [discriminate|].
    cbn [seq combine] in F. inv F. destruct H1 as (t0 & t1 & -> & P0 & P1).
    cbn [concat] in *. rewrite <- !app_assoc in *.
    pose proof (W 0%nat r0 r1 eq_refl) as W0. rewrite Nat.add_0_r in W0.
    replace (2 * (base + 1 + N.of_nat k)) with (2 * (base + N.of_nat (S k))) in * by lia.
    remember (2 * (base + N.of_nat (S k))) as lhs.
    rewrite (proj2 (read_delta_iff _ (lhs - r0) (t1 ++ concat l' ++ rest) HF))
      by (exists t0; auto).
    apply forall_app_r in HF. cbn [bind].
    replace (lhs - r0 <=? lhs) with true by lia. cbn [assert_ bind].
    replace (lhs - (lhs - r0)) with r0 by lia.
    rewrite (proj2 (read_delta_iff _ (r0 - r1) (concat l' ++ rest) HF)) by (exists t1; auto).
    apply forall_app_r in HF. cbn [bind].
    replace (r0 - r1 <=? r0) with true by lia. cbn [assert_ bind].
    replace (r0 - (r0 - r1)) with r1 by lia.
    replace ((r0 <? lhs) && (r1 <=? r0)) with true by lia. cbn [assert_ bind]. subst lhs.
    rewrite (proj2 (IH (S k) _ gs rest HF)); [reflexivity|].
    split; [simpl in L; lia|]. split.
    + intros j q0 q1 Hj. replace (S k + j)%nat with (k + S j)%nat by lia. apply W. exact Hj.
    + exists (concat l'). split; [|reflexivity]. exists l'. split; auto.
Qed.

(* ------------------------------------------------------------- lines of a vector *)

Lemma forall2_of_nth {A B} (P : A -> B -> Prop) : forall l r, length l = length r ->
  (forall i x y, nth_error l i = Some x -> nth_error r i = Some y -> P x y) -> Forall2 P l r.
Proof.
  induction l as [|x l IH]; intros [|y r] H1 H2; try discriminate; constructor.
  - apply (H2 0%nat); reflexivity.
  - apply IH; [simpl in H1; lia|]. intros i. apply (H2 (S i)).
Qed.

Lemma forall2_len {A B} (P : A -> B -> Prop) l r : Forall2 P l r -> length l = length r.
Proof. induction 1; simpl; auto. Qed.

Lemma forall2_impl {A B} (P Q : A -> B -> Prop) l r : (forall x y, P x y -> Q x y) ->
  Forall2 P l r -> Forall2 Q l r.
Proof. intros H. induction 1; constructor; auto. Qed.

(** A loop over the indices 0 .. n-1 that reads one line each. *)
Lemma lines_loop_iff {B} (f : N -> res B) (Q : nat -> bytes -> B -> Prop) n ws r :
  length ws = N.to_nat n ->
  (forall j w y, nth_error ws j = Some w -> (f (N.of_nat j) = Ok y <-> Q j w y)) ->
  (mapM f (range n) = Ok r <->
   length r = length ws /\
   forall j w y, nth_error ws j = Some w -> nth_error r j = Some y -> Q j w y).
Proof.
  intros Hl Hf. split.
  - intros H. pose proof (mapM_length _ _ _ H) as L. unfold range in L.
    rewrite map_length, seq_length in L. split; [lia|]. intros j w y Hw Hy.
    apply mapM_ok in H. destruct (Forall2_nth _ _ _ _ _ H Hy) as (i & Hi & E).
    rewrite range_numbers, numbers_nth in Hi by (apply nth_error_some_lt in Hw; lia). inv Hi.
    rewrite N.add_0_l in E. apply Hf with (w := w) in E; auto.
  - intros (L & H). apply mapM_ok. apply forall2_of_nth.
    { unfold range. rewrite map_length, seq_length. lia. }
    intros i x y Hx Hy. assert (Hi : (i < length ws)%nat) by (apply nth_error_some_lt in Hy; lia).
    rewrite range_numbers, numbers_nth in Hx by lia. inv Hx. rewrite N.add_0_l.
    destruct (nth_error_lt _ _ Hi) as (w & Hw). apply (Hf i w y Hw). eauto.
Qed.

(* ----------------------------------------------------------------------- header *)

Definition fields_of (h : Header) : list N :=
  [h_max h; h_inputs h; h_latches h; h_outputs h; h_ands h; h_bad h; h_constraints h; h_justice h].

Definition header_word (fields : list N) (w : bytes) : Prop :=
  exists k ts, (5 <= k <= 8)%nat /\ Forall (fun n => n = 0) (skipn k fields) /\
    Forall2 numeral (firstn k fields) ts /\ w = words (bs "aig" :: ts).

Lemma bind_iff {A B} (m : res A) (k : A -> res B) r :
  bind m k = Ok r <-> exists a, m = Ok a /\ k a = Ok r.
Proof.
  split; [apply bind_ok|]. intros (a & -> & H). exact H.
Qed.

Lemma header_unicode ns ts : Forall2 numeral ns ts -> unicode (words (bs "aig" :: ts)).
Proof.
  intros H. apply ascii_unicode. apply join_ascii. constructor; [vm_compute; repeat constructor|].
  eapply numerals_ascii; eauto.
Qed.

Lemma header_iff w rest h : check_first_line (w :: rest) = Ok h <->
  header_word (fields_of h) w /\ h_max h = h_inputs h + h_latches h + h_ands h /\
  h_justice h = 0 /\ h_fairness h = 0.
Proof.
  split.
  - intros H. pose proof (header_ok _ _ H) as (E1 & E2 & E3). split; [|auto].
    unfold check_first_line in H. change (index (w :: rest) 0) with (Ok w) in H. cbn [bind] in H.
    apply bind_ok in H. destruct H as (w' & Ew & H). apply from_utf8_ok in Ew. destruct Ew as (-> & _).
    cbv zeta in H. remember (split_spaces [] w) as ps eqn:Ep. symmetry in Ep.
    apply split_spaces_iff in Ep. destruct Ep as (P1 & P2 & P3).
    destruct ps as [|p0 ts]; [contradiction|]. cbn [indexn nth_error unwrap bind] in H.
    apply bind_ok in H. destruct H as ([] & E0 & H). apply assert_ok in E0.
    apply list_eqb_eq in E0. subst p0. change [97; 105; 103] with (bs "aig") in P2.
    apply bind_ok in H. destruct H as ([] & L1 & H). apply assert_ok in L1.
    apply bind_ok in H. destruct H as ([] & L2 & H). apply assert_ok in L2. cbn [length] in L1, L2.
    exists (length ts), ts. split; [lia|].
    destruct ts as [|p1 [|p2 [|p3 [|p4 [|p5 ts]]]]]; try (cbn in L1; lia).
    cbn [indexn nth_error unwrap bind] in H.
    destruct ts as [|p6 [|p7 [|p8 [|p9 ts]]]]; try (cbn in L2; lia);
      unfold optional_number in H; cbn [nth_error bind] in H; binds;
      unfold fields_of; cbn [h_max h_inputs h_latches h_outputs h_ands h_bad h_constraints h_justice
        length skipn firstn];
      repeat match goal with X : convert_string_to_number _ = Ok _ |- _ => apply convert_iff in X end;
      (split; [repeat (apply Forall_cons; [try reflexivity; cbn in *; lia|]); apply Forall_nil|]);
      (split; [repeat (apply Forall2_cons; [assumption|]); apply Forall2_nil|]);
      first [reflexivity|exact P2].
  - intros ((k & ts & Hk & HZ & HF & ->) & E1 & E2 & E3).
    assert (N32 : forall v, In v (bs "aig" :: ts) -> ~ In 32 v).
    { intros v [<-|Hv]; [vm_compute; intuition discriminate|].
      eapply numerals_no; [| |exact HF|exact Hv]; lia. }
    unfold check_first_line. change (index (?w :: rest) 0) with (Ok w). cbn [bind].
    rewrite (proj2 (from_utf8_ok _ (words (bs "aig" :: ts))))
      by (split; [reflexivity|eapply header_unicode; eauto]).
    cbn [bind]. cbv zeta.
    rewrite (proj2 (split_spaces_iff (words (bs "aig" :: ts)) (bs "aig" :: ts)))
      by (split; [discriminate|split; auto]).
    destruct h as [m i l o a b c j f]. cbn [h_max h_inputs h_latches h_ands h_justice h_fairness] in *.
    subst m j f. unfold fields_of in *.
    cbn [h_max h_inputs h_latches h_outputs h_ands h_bad h_constraints h_justice] in *.
    assert (C : (k = 5 \/ k = 6 \/ k = 7 \/ k = 8)%nat) by lia.
    destruct C as [->|[->|[->| ->]]]; cbn [firstn skipn] in HF, HZ;
      repeat match goal with X : Forall2 numeral (_ :: _) _ |- _ => inv X
             | X : Forall2 numeral [] _ |- _ => inv X
             | X : Forall _ (_ :: _) |- _ => inv X end;
      repeat match goal with X : numeral _ _ |- _ => apply convert_iff in X end;
      cbn [indexn nth_error unwrap bind length Nat.ltb Nat.leb assert_];
      change (list_eqb (bs "aig") [97; 105; 103]) with true; cbn [assert_ bind];
      unfold optional_number; cbn [nth_error];
      repeat match goal with X : convert_string_to_number _ = Ok _ |- _ => rewrite X; clear X; cbn [bind] end;
      rewrite N.eqb_refl; reflexivity.
Qed.

(* ------------------------------------------------------------ latches, literals *)

Definition latch_word (x : N * N) (w : bytes) : Prop :=
  exists u, numeral (fst x) u /\
    ((snd x = 0 /\ w = words [u]) \/ exists v, numeral (snd x) v /\ w = words [u; v]).

Lemma latch_piece_iff x t : latch_piece x t <-> exists w, latch_word x w /\ t = w ++ [10].
Proof.
  unfold latch_piece, latch_word, line. split.
  - intros (u & Hu & [(H1 & ->)|(v & Hv & ->)]); eexists; (split; [|reflexivity]); exists u; eauto 6.
  - intros (w & (u & Hu & [(H1 & ->)|(v & Hv & ->)]) & ->); exists u; eauto 6.
Qed.

Lemma literal_piece_iff l t : literal_piece l t <-> exists w, numeral l w /\ t = w ++ [10].
Proof. reflexivity. Qed.

Lemma index_nth {A} (l : list A) i x n : nth_error l n = Some x -> N.to_nat i = n -> index l i = Ok x.
Proof. intros H <-. apply index_ok. auto. Qed.

Lemma latch_line_iff h lines j w x : nth_error lines (S j) = Some w ->
  (latch_line h lines (N.of_nat j) = Ok x <->
   latch_word x w /\ lit_var (fst x) <= h_max h /\
   (snd x = 0 \/ snd x = 1 \/ snd x = 2 * (h_inputs h + 1 + N.of_nat j))).
Proof.
  intros Hw. split.
  - intros H. pose proof H as H0. destruct x as (nx, r). apply latch_line_ok in H0. split; [|exact H0].
    clear H0. unfold latch_line in H. rewrite (index_nth _ _ _ _ Hw) in H by lia. cbn [bind] in H.
    apply bind_ok in H. destruct H as (w' & Ew & H). apply from_utf8_ok in Ew. destruct Ew as (-> & _).
    cbv zeta in H. remember (split_spaces [] w) as ps eqn:Ep. symmetry in Ep.
    apply split_spaces_iff in Ep. destruct Ep as (P1 & P2 & P3).
    apply bind_ok in H. destruct H as ([] & El & H). apply assert_ok in El.
    destruct ps as [|u [|v [|z ps]]]; [discriminate| | |discriminate].
    + cbn [length Nat.eqb indexn nth_error unwrap bind] in H. binds.
      apply convert_iff in E. exists u. cbn [fst snd]. auto.
    + cbn [length Nat.eqb indexn nth_error unwrap bind] in H. binds.
      apply convert_iff in E. apply convert_iff in E1. exists u. cbn [fst snd]. split; auto.
      right. exists v. auto.
  - destruct x as (nx, r). cbn [fst snd]. intros ((u & Hu & Hw') & Hm & Hr). cbn [fst snd] in *.
    assert (L1 : (lit_var nx <=? h_max h) = true) by lia.
    assert (L2 : (r =? 0) || (r =? 1) || (r =? 2 * (N.of_nat j + h_inputs h + 1)) = true) by lia.
    unfold latch_line. rewrite (index_nth _ _ _ _ Hw) by lia. cbn [bind].
    pose proof (numeral_no 32 _ _ ltac:(lia) ltac:(lia) Hu) as Nu.
    pose proof (numeral_ascii _ _ Hu) as Au. apply convert_iff in Hu.
    destruct Hw' as [(-> & ->)|(v & Hv & ->)].
    + rewrite (proj2 (from_utf8_ok _ (words [u]))).
      2:{ split; auto. apply ascii_unicode. apply join_ascii. repeat constructor; auto. }
      cbn [bind]. cbv zeta. rewrite (proj2 (split_spaces_iff (words [u]) [u])).
      2:{ split; [discriminate|]. split; auto. intros w [<-|[]]; auto. }
      cbn [length Nat.eqb orb assert_ bind indexn nth_error unwrap]. rewrite Hu. cbn [bind].
      unfold check_literal. rewrite shiftr_var, L1. reflexivity.
    + pose proof (numeral_no 32 _ _ ltac:(lia) ltac:(lia) Hv) as Nv.
      pose proof (numeral_ascii _ _ Hv) as Av. apply convert_iff in Hv.
      rewrite (proj2 (from_utf8_ok _ (words [u; v]))).
      2:{ split; auto. apply ascii_unicode. apply join_ascii. repeat constructor; auto. }
      cbn [bind]. cbv zeta. rewrite (proj2 (split_spaces_iff (words [u; v]) [u; v])).
      2:{ split; [discriminate|]. split; auto. intros w [<-|[<-|[]]]; auto. }
      cbn [length Nat.eqb orb assert_ bind indexn nth_error unwrap]. rewrite Hu. cbn [bind].
      unfold check_literal. rewrite shiftr_var, L1. cbn [assert_ bind]. rewrite Hv. cbn [bind].
      rewrite L2. reflexivity.
Qed.

Lemma literal_lines_iff h lines n skip ws ls : length ws = N.to_nat n ->
  (forall j w, nth_error ws j = Some w -> nth_error lines (S j + N.to_nat skip) = Some w) ->
  (create_literal_lines h lines n skip = Ok ls <->
   Forall2 numeral ls ws /\ Forall (fun l => lit_var l <= h_max h) ls).
Proof.
  intros Hl Hw. unfold create_literal_lines.
  rewrite (lines_loop_iff _ (fun _ w l => numeral l w /\ lit_var l <= h_max h) n ws).
  2:{ exact Hl. }
  2:{ intros j w y Hj. rewrite (index_nth _ _ _ _ (Hw _ _ Hj)) by lia. cbn [bind].
      unfold check_literal. rewrite bind_iff. split.
      - intros (w' & E1 & E2). apply from_utf8_ok in E1. destruct E1 as (-> & _). binds.
        rewrite shiftr_var in *. split; [apply convert_iff; auto|lia].
      - intros (E1 & E2). exists w. split.
        + apply from_utf8_ok. split; [auto|]. apply ascii_unicode. eapply numeral_ascii; eauto.
        + apply convert_iff in E1. rewrite E1. cbn [bind]. rewrite shiftr_var.
          replace (lit_var y <=? h_max h) with true by lia. reflexivity. }
  split.
  - intros (L & H). split.
    + apply forall2_of_nth; [auto|]. intros i x y Hx Hy. eapply H; eauto.
    + apply Forall_forall. intros l Hin. apply In_nth_error in Hin. destruct Hin as (i & Hi).
      assert (Hlt : (i < length ws)%nat) by (apply nth_error_some_lt in Hi; lia).
      destruct (nth_error_lt _ _ Hlt) as (w & Hi'). eapply H; eauto.
  - intros (F1 & F2). split.
    + eapply forall2_len; eauto.
    + intros j w y Hj Hy. rewrite Forall_forall in F2. split; [|apply F2; eapply nth_error_In; eauto].
      destruct (Forall2_nth _ _ _ _ _ F1 Hj) as (x & Hx & Hn). congruence.
Qed.

(* ---------------------------------------------------------------- the whole circuit *)

Lemma split_at {A} n (l : list A) : (n <= length l)%nat ->
  exists a b, l = a ++ b /\ length a = n.
Proof.
  intros H. exists (firstn n l), (skipn n l). rewrite firstn_skipn, firstn_length. split; auto. lia.
Qed.

Lemma header_piece_iff c t : header_piece c t <->
  exists w, header_word (header_fields c) w /\ t = w ++ [10].
Proof.
  unfold header_piece, header_word, line. split.
  - intros (k & ts & H1 & H2 & H3 & ->). eexists. split; [|reflexivity]. exists k, ts. auto.
  - intros (w & (k & ts & H1 & H2 & H3 & ->) & ->). exists k, ts. auto.
Qed.

Lemma gate_piece_at c e t : gate_piece c e t <-> gate_at (c_inputs c + lenN (c_latches c)) e t.
Proof. destruct e as (j, (r0, r1)). reflexivity. Qed.

Lemma pieces_ext {A} (P Q : A -> bytes -> Prop) l t : (forall x t, P x t <-> Q x t) ->
  (pieces P l t <-> pieces Q l t).
Proof.
  intros H. unfold pieces. split; intros (ts & F & ->); exists ts; (split; [|auto]);
    (eapply forall2_impl; [|exact F]); intros; apply H; auto.
Qed.

Lemma allocate_iff h : (exists ns, allocate_vectors h = Ok ns) <->
  (h_max h + 1) * 168 <= isize_max /\ h_inputs h * 8 <= isize_max /\ h_latches h * 8 <= isize_max /\
  h_outputs h * 8 <= isize_max /\ h_ands h * 8 <= isize_max /\ h_bad h * 8 <= isize_max /\
  h_constraints h * 8 <= isize_max.
Proof.
  unfold allocate_vectors. split.
  - intros (ns & H). binds. lia.
  - intros H. exists [zero_node].
    repeat match goal with |- context [assert_ (?x <=? ?y)] =>
      replace (x <=? y) with true by lia; cbn [assert_ bind] end. reflexivity.
Qed.

Lemma word_no10 x w : latch_word x w -> ~ In 10 w.
Proof.
  intros (u & Hu & [(_ & ->)|(v & Hv & ->)]); apply words_no10; intros w Hw.
  - destruct Hw as [<-|[]]. eapply numeral_no; [| |eauto]; lia.
  - destruct Hw as [<-|[<-|[]]]; (eapply numeral_no; [| |eauto]; lia).
Qed.

Lemma header_no10 f w : header_word f w -> ~ In 10 w.
Proof.
  intros (k & ts & _ & _ & HF & ->). apply words_no10. intros w [<-|Hw].
  - vm_compute. intuition discriminate.
  - eapply numerals_no; [| |exact HF|exact Hw]; lia.
Qed.

Lemma forall2_no10 {A} (P : A -> bytes -> Prop) l ws : (forall x w, P x w -> ~ In 10 w) ->
  Forall2 P l ws -> forall w, In w ws -> ~ In 10 w.
Proof.
  intros H F. induction F as [|x w l ws Hx F IH]; intros v Hv; [destruct Hv|].
  destruct Hv as [<-|Hv]; eauto.
Qed.

Definition circuit_text (c : circuit) (t : bytes) : Prop :=
  exists t0 t1 t2 t3, header_piece c t0 /\ pieces latch_piece (c_latches c) t1 /\
    pieces literal_piece (c_outputs c ++ c_bad c ++ c_constraints c) t2 /\
    pieces (gate_piece c) (number_items (c_ands c)) t3 /\ t = t0 ++ t1 ++ t2 ++ t3.

Lemma parse_circuit_forward data c rest : Forall (fun x => x < 256) data ->
  parse_circuit data = Ok (c, rest) ->
  circuit_wf c /\ vectors_fit c /\ exists t, circuit_text c t /\ data = t ++ rest.
Proof.
  intros HB H. pose proof (parse_circuit_ok _ _ _ H) as (Hwf & Hfit). split; [exact Hwf|].
  unfold parse_circuit in H. cbv zeta in H.
  apply bind_ok in H. destruct H as (h & Eh & H). apply bind_ok in H. destruct H as (ns & Ea & H).
  apply bind_ok in H. destruct H as (ls & El & H). apply bind_ok in H. destruct H as (os & Eo & H).
  apply bind_ok in H. destruct H as (bds & Eb & H). apply bind_ok in H. destruct H as (cs & Ec & H).
  apply bind_ok in H. destruct H as (data' & Ed & H).
  apply bind_ok in H. destruct H as ((gs & rest') & Eg & H). inv H.
  apply skip_lines_spec in Ed. destruct Ed as (ws & Lw & Nw & ->).
  rewrite split_lines_ended in Eh, El, Eo, Eb, Ec by auto.
  remember (split_lines [] data') as more eqn:Em. clear Em.
  destruct ws as [|w0 ws]; [cbn in Lw; lia|]. cbn [app] in Eh. cbn [length] in Lw.
  destruct (split_at (N.to_nat (h_latches h)) ws) as (wl & r1 & -> & L1); [lia|].
  rewrite app_length in Lw.
  destruct (split_at (N.to_nat (h_outputs h)) r1) as (wo & r2 & -> & L2); [lia|].
  rewrite app_length in Lw.
  destruct (split_at (N.to_nat (h_bad h)) r2) as (wb & wc & -> & L3); [lia|].
  rewrite app_length in Lw. assert (L4 : length wc = N.to_nat (h_constraints h)) by lia.
  apply header_iff in Eh. destruct Eh as (Hh & Em & Ej & _).
  pose proof (mapM_length _ _ _ El) as Ll. unfold range in Ll. rewrite map_length, seq_length in Ll.
  pose proof (literal_lines_length _ _ _ _ _ Eo) as Lo. pose proof (literal_lines_length _ _ _ _ _ Eb) as Lb.
  pose proof (literal_lines_length _ _ _ _ _ Ec) as Lc.
  set (lines := (w0 :: wl ++ wo ++ wb ++ wc) ++ more) in *.
  assert (NL : forall j w, nth_error wl j = Some w -> nth_error lines (S j) = Some w).
  { intros j w Hj. unfold lines. cbn [app nth_error]. rewrite <- app_assoc, nth_error_app1; auto.
    eapply nth_error_some_lt; eauto. }
  assert (NO : forall j w, nth_error wo j = Some w -> nth_error lines (S j + N.to_nat (h_latches h)) = Some w).
  { intros j w Hj. pose proof (nth_error_some_lt _ _ _ Hj). unfold lines. cbn [app nth_error plus].
    rewrite <- !app_assoc, nth_error_app2, nth_error_app1 by lia.
    rewrite <- Hj. f_equal. lia. }
  assert (NB : forall j w, nth_error wb j = Some w ->
             nth_error lines (S j + N.to_nat (h_latches h + h_outputs h)) = Some w).
  { intros j w Hj. pose proof (nth_error_some_lt _ _ _ Hj). unfold lines. cbn [app nth_error plus].
    rewrite <- !app_assoc, nth_error_app2, nth_error_app2, nth_error_app1 by lia.
    rewrite <- Hj. f_equal. lia. }
  assert (NC : forall j w, nth_error wc j = Some w ->
             nth_error lines (S j + N.to_nat (h_latches h + h_outputs h + h_bad h)) = Some w).
  { intros j w Hj. pose proof (nth_error_some_lt _ _ _ Hj). unfold lines. cbn [app nth_error plus].
    rewrite <- !app_assoc, nth_error_app2, nth_error_app2, nth_error_app2, nth_error_app1 by lia.
    rewrite <- Hj. f_equal. lia. }
  apply (lines_loop_iff _ (fun j w x => latch_word x w /\ lit_var (fst x) <= h_max h /\
     (snd x = 0 \/ snd x = 1 \/ snd x = 2 * (h_inputs h + 1 + N.of_nat j))) _ wl) in El; auto.
  2:{ intros j w y Hj. apply latch_line_iff. auto. }
  destruct El as (_ & El).
  apply (literal_lines_iff _ _ _ _ wo) in Eo; auto. destruct Eo as (Eo & _).
  apply (literal_lines_iff _ _ _ _ wb) in Eb; auto. destruct Eb as (Eb & _).
  apply (literal_lines_iff _ _ _ _ wc) in Ec; auto. destruct Ec as (Ec & _).
  assert (HB' : Forall (fun x => x < 256) data') by (eapply forall_app_r; eauto).
  replace (h_inputs h + h_latches h) with (h_inputs h + h_latches h + N.of_nat 0) in Eg by lia.
  apply read_gates_iff in Eg; auto. destruct Eg as (Lg & _ & t3 & P3 & ->).
  assert (Ll' : lenN ls = h_latches h) by (unfold lenN; lia).
  assert (Lg' : lenN gs = h_ands h) by (unfold lenN; lia).
  split.
  - assert (A : exists ns, allocate_vectors h = Ok ns) by eauto. apply allocate_iff in A.
    unfold isize_max in A. unfold vectors_fit. cbn [c_outputs c_bad c_constraints].
    split; [exact Hfit|]. rewrite Lo, Lb, Lc. lia.
  - exists (ended (w0 :: wl ++ wo ++ wb ++ wc) ++ t3). rewrite <- app_assoc. split; [|reflexivity].
    exists (w0 ++ [10]), (ended wl), (ended (wo ++ wb ++ wc)), t3.
    cbn [c_latches c_outputs c_bad c_constraints c_ands].
    split.
    { apply header_piece_iff. exists w0. split; [|reflexivity].
      unfold header_fields, c_max. cbn [c_inputs c_latches c_outputs c_bad c_constraints c_ands].
      destruct h as [m i l o a b k j f]. unfold fields_of in Hh.
      cbn [h_max h_inputs h_latches h_outputs h_ands h_bad h_constraints h_justice] in *.
      rewrite Ll', Lg', Lo, Lb, Lc, <- Em. subst j. exact Hh. }
    split.
    { apply (pieces_ended _ latch_word). { apply latch_piece_iff. }
      exists wl. split; [|reflexivity]. apply forall2_of_nth; [rewrite Ll; symmetry; exact L1|].
      intros i x y Hx Hy. eapply (El i y x); auto. }
    split.
    { apply (pieces_ended _ numeral). { apply literal_piece_iff. }
      exists (wo ++ wb ++ wc). split; [|reflexivity]. repeat apply Forall2_app; auto. }
    split.
    { apply (pieces_ext _ (gate_at (h_inputs h + h_latches h))).
      - intros x t. rewrite gate_piece_at. cbn [c_inputs c_latches]. rewrite Ll'. reflexivity.
      - unfold number_items. rewrite Lg. exact P3. }
    unfold ended. cbn [map concat]. rewrite map_app, concat_app, <- !app_assoc. reflexivity.
Qed.

Lemma parse_circuit_backward c t rest : Forall (fun x => x < 256) (t ++ rest) ->
  circuit_wf c -> vectors_fit c -> circuit_text c t -> parse_circuit (t ++ rest) = Ok (c, rest).
Proof.
  intros HB Hwf Hv (t0 & t1 & t2 & t3 & H0 & H1 & H2 & H3 & ->).
  apply header_piece_iff in H0. destruct H0 as (w0 & Hh & ->).
  apply (pieces_ended _ latch_word) in H1; [|apply latch_piece_iff]. destruct H1 as (wl & Fl & ->).
  apply (pieces_ended _ numeral) in H2; [|apply literal_piece_iff]. destruct H2 as (wx & Fx & ->).
  apply Forall2_app_inv_l in Fx. destruct Fx as (wo & wy & Fo & Fy & ->).
  apply Forall2_app_inv_l in Fy. destruct Fy as (wb & wc & Fb & Fc & ->).
  set (ws := w0 :: wl ++ wo ++ wb ++ wc).
  assert (Nw : forall w, In w ws -> ~ In 10 w).
  { intros w [<-|Hw]; [eapply header_no10; eauto|].
    assert (NN : forall l v, Forall2 numeral l v -> forall w, In w v -> ~ In 10 w).
    { intros l v F. eapply forall2_no10; [|exact F]. intros x y. apply numeral_no; lia. }
    rewrite !in_app_iff in Hw. destruct Hw as [Hw|[Hw|[Hw|Hw]]].
    - exact (forall2_no10 _ _ _ word_no10 Fl w Hw).
    - exact (NN _ _ Fo w Hw).
    - exact (NN _ _ Fb w Hw).
    - exact (NN _ _ Fc w Hw). }
  assert (Et : ((w0 ++ [10]) ++ ended wl ++ ended (wo ++ wb ++ wc) ++ t3) ++ rest = ended ws ++ t3 ++ rest).
  { unfold ws, ended. cbn [map concat]. rewrite (map_app _ wl), concat_app, <- !app_assoc. reflexivity. }
  rewrite Et in *. clear Et.
  pose proof (forall2_len _ _ _ Fl) as Ll. pose proof (forall2_len _ _ _ Fo) as Lo.
  pose proof (forall2_len _ _ _ Fb) as Lb. pose proof (forall2_len _ _ _ Fc) as Lc.
  unfold parse_circuit. cbv zeta. rewrite split_lines_ended by auto.
  set (more := split_lines [] (t3 ++ rest)).
  match goal with |- context [check_first_line ?x] => set (lines := x) end.
  assert (Eh : check_first_line lines = Ok (header_of c)).
  { apply (header_iff w0 ((wl ++ wo ++ wb ++ wc) ++ more) (header_of c)).
    split; [exact Hh|]. split; [reflexivity|]. split; reflexivity. }
  rewrite Eh. clear Eh.
  cbn [bind]. pose proof Hv as (V1 & V2 & V3 & V4).
  assert (A : exists ns, allocate_vectors (header_of c) = Ok ns).
  { apply allocate_iff. unfold header_of, isize_max, circuit_fits, c_max in *.
    cbn [h_max h_inputs h_latches h_outputs h_ands h_bad h_constraints].
    split; [assumption|]. split; [lia|]. split; [lia|]. split; [assumption|]. split; [lia|].
    split; assumption. }
  destruct A as (ns & A). rewrite A. cbn [bind].
  assert (NL : forall j w, nth_error wl j = Some w -> nth_error lines (S j) = Some w).
  { intros j w Hj. unfold lines, ws. cbn [app nth_error]. rewrite <- app_assoc, nth_error_app1; auto.
    eapply nth_error_some_lt; eauto. }
  assert (NO : forall j w, nth_error wo j = Some w ->
             nth_error lines (S j + N.to_nat (lenN (c_latches c))) = Some w).
  { intros j w Hj. pose proof (nth_error_some_lt _ _ _ Hj). unfold lines, ws, lenN. cbn [app nth_error plus].
    rewrite <- !app_assoc, nth_error_app2, nth_error_app1 by lia.
    rewrite <- Hj. f_equal. lia. }
  assert (NB : forall j w, nth_error wb j = Some w ->
             nth_error lines (S j + N.to_nat (lenN (c_latches c) + lenN (c_outputs c))) = Some w).
  { intros j w Hj. pose proof (nth_error_some_lt _ _ _ Hj). unfold lines, ws, lenN. cbn [app nth_error plus].
    rewrite <- !app_assoc, nth_error_app2, nth_error_app2, nth_error_app1 by lia.
    rewrite <- Hj. f_equal. lia. }
  assert (NC : forall j w, nth_error wc j = Some w ->
             nth_error lines (S j + N.to_nat (lenN (c_latches c) + lenN (c_outputs c) + lenN (c_bad c))) = Some w).
  { intros j w Hj. pose proof (nth_error_some_lt _ _ _ Hj). unfold lines, ws, lenN. cbn [app nth_error plus].
    rewrite <- !app_assoc, nth_error_app2, nth_error_app2, nth_error_app2, nth_error_app1 by lia.
    rewrite <- Hj. f_equal. lia. }
  pose proof Hwf as (W1 & W2 & W3 & W4 & W5).
  cbn [header_of h_latches h_outputs h_bad h_constraints h_ands h_inputs].
  fold (header_of c).
  rewrite (proj2 (lines_loop_iff (latch_line (header_of c) lines)
     (fun j w x => latch_word x w /\ lit_var (fst x) <= h_max (header_of c) /\
     (snd x = 0 \/ snd x = 1 \/ snd x = 2 * (h_inputs (header_of c) + 1 + N.of_nat j)))
     (lenN (c_latches c)) wl (c_latches c) ltac:(unfold lenN; lia)
     (fun j w y Hj => latch_line_iff _ _ _ _ _ (NL j w Hj)))).
  2:{ split; [lia|]. intros j w (nx, r) Hj Hy. cbn [fst snd]. split.
      - destruct (Forall2_nth _ _ _ _ _ Fl Hj) as (x & Hx & Hn). congruence.
      - assert (L : latch c (latch_var c j) nx r) by (exists j; auto).
        apply W1 in L. exact L. }
  cbn [bind].
  rewrite (proj2 (literal_lines_iff (header_of c) lines (lenN (c_outputs c)) (lenN (c_latches c)) wo (c_outputs c)
      ltac:(unfold lenN; lia) NO)) by (split; [exact Fo|exact W2]).
  cbn [bind].
  rewrite (proj2 (literal_lines_iff (header_of c) lines (lenN (c_bad c)) _ wb (c_bad c)
      ltac:(unfold lenN; lia) NB)) by (split; [exact Fb|exact W3]).
  cbn [bind].
  rewrite (proj2 (literal_lines_iff (header_of c) lines (lenN (c_constraints c)) _ wc (c_constraints c)
      ltac:(unfold lenN; lia) NC)) by (split; [exact Fc|exact W4]).
  cbn [bind].
  replace (N.to_nat (1 + lenN (c_latches c) + lenN (c_outputs c) + lenN (c_bad c) + lenN (c_constraints c)))
    with (length ws) by (unfold ws, lenN; cbn [length]; rewrite !app_length; lia).
  rewrite skip_lines_ended by auto. cbn [bind].
  replace (2 * (c_inputs c + lenN (c_latches c)))
    with (2 * (c_inputs c + lenN (c_latches c) + N.of_nat 0)) by lia.
  rewrite (proj2 (read_gates_iff (c_inputs c + lenN (c_latches c)) (N.to_nat (lenN (c_ands c))) 0
      (t3 ++ rest) (c_ands c) rest (forall_app_r _ _ _ HB))).
  - cbn [bind]. destruct c; reflexivity.
  - split; [unfold lenN; lia|]. split.
    + intros j r0 r1 Hj. assert (G : gate c (gate_var c j) r0 r1) by (exists j; auto).
      apply W5 in G. exact G.
    + exists t3. split; [|reflexivity]. apply (pieces_ext (gate_piece c)); [apply gate_piece_at|].
      unfold number_items in H3. unfold lenN. rewrite Nat2N.id. exact H3.
Qed.
