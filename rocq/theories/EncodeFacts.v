(** Decoding inverts the AIGER encoding. *)
From Verif Require Import Base Aig AigParse Spec SpecAig SpecText SpecAiger Tac TextFacts AigFacts
  SimFacts ParseFacts.
Open Scope N_scope.
Import String.StringSyntax.
Arguments bs s%string_scope.

(* --------------------------------------------------------------------- deltas *)

Lemma byte_table : forallb (fun y => (N.land y 128 =? 0) && (N.land (128 + y) 128 =? 128)
                                     && (N.land (128 + y) 127 =? y))
                     (map N.of_nat (seq 0 128)) = true.
Proof. vm_compute. reflexivity. Qed.

Lemma byte_facts y : y < 128 -> N.land y 128 = 0 /\ N.land (128 + y) 128 = 128 /\
  N.land (128 + y) 127 = y.
Proof.
  intros H. pose proof byte_table as T. rewrite forallb_forall in T.
  specialize (T y). rewrite !andb_true_iff, !N.eqb_eq in T. destruct T as ((T1 & T2) & T3); auto.
  apply in_map_iff. exists (N.to_nat y). split; [lia|]. apply in_seq. lia.
Qed.

Lemma lor_shiftl a b k : a < 2 ^ k -> N.lor a (N.shiftl b k) = a + b * 2 ^ k.
Proof.
  intros H. assert (L : N.land a (N.shiftl b k) = 0).
  { apply N.bits_inj_0. intros n. rewrite N.land_spec.
    destruct (N.lt_ge_cases n k) as [Hn|Hn].
    - rewrite N.shiftl_spec_low by auto. apply andb_false_r.
    - rewrite <- (N.mod_small a (2 ^ k)) by auto. rewrite N.mod_pow2_bits_high by auto. auto. }
  rewrite <- N.lxor_lor by auto. rewrite <- N.add_nocarry_lxor by auto.
  rewrite N.shiftl_mul_pow2. reflexivity.
Qed.

Lemma delta_step_eq d x P : d + x mod 128 * P + x / 128 * (128 * P) = d + x * P.
Proof.
  pose proof (N.div_mod' x 128) as E. remember (x / 128) as q. remember (x mod 128) as m.
  clear Heqq Heqm. subst x. ring.
Qed.

Lemma delta_step_lt d m P : d < P -> m < 128 -> d + m * P < 128 * P.
Proof.
  intros Hd Hm. assert (m * P <= 127 * P) by (apply N.mul_le_mono_r; lia). lia.
Qed.

Definition room (i : nat) : N := 2 ^ (38 - 7 * N.of_nat i).

Lemma delta_bytes_S f x : delta_bytes (S f) x =
  if x <? 128 then [x] else (128 + x mod 128) :: delta_bytes f (x / 128).
Proof. reflexivity. Qed.

Lemma encode_delta_fuel f g x : x < 2 ^ N.of_nat f -> x < 2 ^ N.of_nat g ->
  delta_bytes (S f) x = delta_bytes (S g) x.
Proof.
  revert g x. induction f as [|f IH]; intros g x Hf Hg.
  - change (2 ^ N.of_nat 0) with 1 in Hf. rewrite !delta_bytes_S.
    replace (x <? 128) with true by lia. reflexivity.
  - rewrite (delta_bytes_S (S f)), (delta_bytes_S g). destruct (x <? 128) eqn:E; auto.
    destruct g as [|g]. { change (2 ^ N.of_nat 0) with 1 in Hg. lia. }
    f_equal. apply IH.
    + rewrite Nat2N.inj_succ, N.pow_succ_r' in Hf. lia.
    + rewrite Nat2N.inj_succ, N.pow_succ_r' in Hg. lia.
Qed.

Lemma encode_delta_unfold x : encode_delta x =
  if x <? 128 then [x] else (128 + x mod 128) :: encode_delta (x / 128).
Proof.
  unfold encode_delta. rewrite delta_bytes_S. destruct (x <? 128) eqn:E; auto. f_equal.
  pose proof (N.size_gt x) as Hx. pose proof (N.size_gt (x / 128)) as Hy.
  rewrite <- size_nat_N in Hx, Hy.
  destruct (N.size_nat x) as [|s] eqn:Es. { change (2 ^ N.of_nat 0) with 1 in Hx. lia. }
  apply encode_delta_fuel; auto. rewrite Nat2N.inj_succ, N.pow_succ_r' in Hx. lia.
Qed.

Lemma encode_delta_nonempty x : encode_delta x <> [].
Proof. rewrite encode_delta_unfold. destruct (x <? 128); discriminate. Qed.

Lemma read_delta_loop_unfold fuel i delta ch rest :
  read_delta_loop fuel i delta ch rest =
  if negb (N.land ch 128 =? 0) then
    match fuel with
    | O => Panic
    | S fuel' =>
        match rest with
        | [] => Panic
        | ch' :: rest' =>
            read_delta_loop fuel' (i + 1) (N.lor delta (N.shiftl (N.land ch 127) (7 * i))) ch' rest'
        end
    end
  else
    _ <- assert_ (negb (i =? 5) || (ch <? 8)) ;;
    Ok (N.lor delta (N.shiftl ch (7 * i)), rest).
Proof. destruct fuel; reflexivity. Qed.

(** Reading one encoded number. *)
Lemma read_loop_ok : forall fuel i delta x ch tl rest,
  (i + fuel = 5)%nat -> delta < 2 ^ (7 * N.of_nat i) -> x < room i ->
  encode_delta x = ch :: tl ->
  read_delta_loop fuel (N.of_nat i) delta ch (tl ++ rest) =
  Ok (delta + x * 2 ^ (7 * N.of_nat i), rest).
Proof.
  induction fuel as [|fuel IH]; intros i delta x ch tl rest Hi Hd Hx E;
    rewrite encode_delta_unfold in E; rewrite read_delta_loop_unfold.
  - assert (i = 5%nat) by lia. subst i. change (room 5) with 8 in Hx.
    replace (x <? 128) with true in E by lia. inv E.
    destruct (byte_facts ch) as (B1 & _); [lia|]. rewrite B1.
    change (0 =? 0) with true. cbn [negb app].
    replace (ch <? 8) with true by lia. rewrite orb_true_r. cbn [assert_ bind].
    rewrite lor_shiftl by auto. reflexivity.
  - destruct (x <? 128) eqn:Es.
    + inv E. destruct (byte_facts ch) as (B1 & _); [lia|]. rewrite B1.
      change (0 =? 0) with true. cbn [negb app].
      replace (N.of_nat i =? 5) with false by lia. cbn [negb orb assert_ bind].
      rewrite lor_shiftl by auto. reflexivity.
    + inv E. destruct (byte_facts (x mod 128)) as (_ & B2 & B3); [lia|]. rewrite B2, B3.
      change (128 =? 0) with false. cbn [negb].
      destruct (encode_delta (x / 128)) as [|ch' tl'] eqn:E'.
      { contradiction (encode_delta_nonempty _ E'). }
      cbn [app]. rewrite lor_shiftl by auto.
      replace (N.of_nat i + 1) with (N.of_nat (S i)) by lia.
      assert (P7 : 2 ^ (7 * N.of_nat (S i)) = 128 * 2 ^ (7 * N.of_nat i)).
      { change 128 with (2 ^ 7). rewrite <- N.pow_add_r. f_equal. lia. }
      rewrite (IH (S i) _ (x / 128)); auto; try lia.
      * rewrite P7, delta_step_eq. reflexivity.
      * rewrite P7. apply delta_step_lt; lia.
      * assert (Hr : room i = 128 * room (S i)).
        { unfold room. change 128 with (2 ^ 7). rewrite <- N.pow_add_r. f_equal. lia. }
        rewrite Hr in Hx. apply N.div_lt_upper_bound; lia.
Qed.

Lemma read_delta_encode x rest : x < 2 ^ 38 -> read_delta (encode_delta x ++ rest) = Ok (x, rest).
Proof.
  intros H. destruct (encode_delta x) as [|ch tl] eqn:E.
  { contradiction (encode_delta_nonempty _ E). }
  change (read_delta ((ch :: tl) ++ rest)) with (read_delta_loop 5 (N.of_nat 0) 0 ch (tl ++ rest)).
  rewrite (read_loop_ok 5 0 0 x ch tl rest); auto.
  - change (2 ^ (7 * N.of_nat 0)) with 1. rewrite N.mul_1_r. reflexivity.
  - reflexivity.
Qed.

(** Too long. *)
Lemma read_loop_long : forall fuel i delta x ch tl rest,
  (i + fuel = 5)%nat -> room i <= x -> encode_delta x = ch :: tl ->
  read_delta_loop fuel (N.of_nat i) delta ch (tl ++ rest) = Panic.
Proof.
  induction fuel as [|fuel IH]; intros i delta x ch tl rest Hi Hx E;
    rewrite encode_delta_unfold in E; rewrite read_delta_loop_unfold.
  - assert (i = 5%nat) by lia. subst i. change (room 5) with 8 in Hx.
    destruct (x <? 128) eqn:Es.
    + inv E. destruct (byte_facts ch) as (B1 & _); [lia|]. rewrite B1.
      change (0 =? 0) with true. cbn [negb].
      change (N.of_nat 5 =? 5) with true. replace (ch <? 8) with false by lia. reflexivity.
    + inv E. destruct (byte_facts (x mod 128)) as (_ & B2 & _); [lia|]. rewrite B2. reflexivity.
  - assert (Hr : room i = 128 * room (S i)).
    { unfold room. change 128 with (2 ^ 7). rewrite <- N.pow_add_r. f_equal. lia. }
    assert (Hp : 1 <= room (S i)). { unfold room. pose proof (N.pow_nonzero 2 (38 - 7 * N.of_nat (S i))). lia. }
    destruct (x <? 128) eqn:Es; [lia|].
    inv E. destruct (byte_facts (x mod 128)) as (_ & B2 & B3); [lia|]. rewrite B2.
    change (128 =? 0) with false. cbn [negb].
    destruct (encode_delta (x / 128)) as [|ch' tl'] eqn:E'.
    { contradiction (encode_delta_nonempty _ E'). }
    cbn [app]. replace (N.of_nat i + 1) with (N.of_nat (S i)) by lia.
    eapply IH; eauto; lia.
Qed.

Lemma read_delta_long x rest : 2 ^ 38 <= x -> read_delta (encode_delta x ++ rest) = Panic.
Proof.
  intros H. destruct (encode_delta x) as [|ch tl] eqn:E.
  { contradiction (encode_delta_nonempty _ E). }
  change (read_delta ((ch :: tl) ++ rest)) with (read_delta_loop 5 (N.of_nat 0) 0 ch (tl ++ rest)).
  eapply (read_loop_long 5 0); eauto.
Qed.

(** Truncated. *)
Lemma read_loop_short : forall fuel i delta x ch tl more,
  encode_delta x = ch :: tl ++ more -> more <> [] ->
  read_delta_loop fuel i delta ch tl = Panic.
Proof.
  induction fuel as [|fuel IH]; intros i delta x ch tl more E Hm;
    rewrite encode_delta_unfold in E; rewrite read_delta_loop_unfold;
    (destruct (x <? 128) eqn:Es; [inv E; destruct tl; [destruct more; [contradiction|]|]; discriminate|]);
    injection E as <- E; destruct (byte_facts (x mod 128)) as (_ & B2 & _); try lia; rewrite B2;
    change (128 =? 0) with false; cbn [negb]; auto.
  destruct tl as [|ch' tl']; auto. eapply IH; eauto.
Qed.

Lemma read_delta_short x some more : encode_delta x = some ++ more -> more <> [] ->
  read_delta some = Panic.
Proof.
  intros E Hm. destruct some as [|ch tl]; [reflexivity|]. cbn [read_delta].
  eapply read_loop_short; eauto.
Qed.

(** Whatever is read is a complete encoding. *)
Lemma read_loop_value : forall fuel i delta ch rest d rest',
  (i + fuel = 5)%nat -> Forall (fun x => x < 256) (ch :: rest) ->
  delta < 2 ^ (7 * N.of_nat i) ->
  read_delta_loop fuel (N.of_nat i) delta ch rest = Ok (d, rest') ->
  exists enc x, ch :: rest = enc ++ rest' /\ delta_value enc = Some x /\
    d = delta + x * 2 ^ (7 * N.of_nat i) /\ x < room i.
Proof.
  assert (Small : forall ch, ch < 256 -> N.land ch 128 = 0 -> ch < 128).
  { intros ch H1 H2. destruct (N.lt_ge_cases ch 128); auto.
    destruct (byte_facts (ch - 128)) as (_ & B2 & _); [lia|].
    replace (128 + (ch - 128)) with ch in B2 by lia. congruence. }
  induction fuel as [|fuel IH]; intros i delta ch rest d rest' Hi HF Hd H;
    rewrite read_delta_loop_unfold in H.
  - assert (i = 5%nat) by lia. subst i. destruct (N.land ch 128 =? 0) eqn:E; [|discriminate].
    cbn [negb] in H. binds. change (N.of_nat 5 =? 5) with true in E0. cbn [negb orb] in E0.
    exists [ch], ch. split; auto. split. { simpl. replace (ch <? 128) with true by lia. auto. }
    split. { apply lor_shiftl. auto. }
    change (room 5) with 8. lia.
  - destruct (N.land ch 128 =? 0) eqn:E; cbn [negb] in H.
    + binds. inv HF. assert (ch < 128) by (apply Small; auto; lia).
      exists [ch], ch. split; auto. split. { simpl. replace (ch <? 128) with true by lia. auto. }
      split. { apply lor_shiftl. auto. }
      assert (128 <= room i); [|lia]. unfold room. change 128 with (2 ^ 7).
      apply N.pow_le_mono_r; lia.
    + destruct rest as [|ch' rest0]; [discriminate|]. inv HF.
      assert (Hch : 128 <= ch).
      { destruct (N.lt_ge_cases ch 128) as [X|X]; auto. destruct (byte_facts ch X) as (B & _). lia. }
      destruct (byte_facts (ch - 128)) as (_ & _ & B3); [lia|].
      replace (128 + (ch - 128)) with ch in B3 by lia.
      assert (P7 : 2 ^ (7 * N.of_nat (S i)) = 128 * 2 ^ (7 * N.of_nat i)).
      { change 128 with (2 ^ 7). rewrite <- N.pow_add_r. f_equal. lia. }
      replace (N.of_nat i + 1) with (N.of_nat (S i)) in H by lia.
      rewrite B3, lor_shiftl in H by auto.
      apply IH in H; auto; try lia.
      2:{ rewrite P7. apply delta_step_lt; lia. }
      destruct H as (enc & x & E1 & E2 & E3 & E4).
      exists (ch :: enc), ((ch - 128) + 128 * x). split. { cbn [app]. congruence. }
      split. { destruct enc; [discriminate|]. cbn [delta_value] in *.
               replace (ch <? 128) with false by lia. rewrite E2. reflexivity. }
      split. { rewrite E3, P7. ring. }
      assert (Hr : room i = 128 * room (S i)).
      { unfold room. change 128 with (2 ^ 7). rewrite <- N.pow_add_r. f_equal. lia. }
      lia.
Qed.

Lemma read_delta_value data d rest : Forall (fun x => x < 256) data ->
  read_delta data = Ok (d, rest) ->
  exists enc, data = enc ++ rest /\ delta_value enc = Some d /\ d < 2 ^ 38.
Proof.
  intros HF H. destruct data as [|ch tl]; [discriminate|]. cbn [read_delta] in H.
  apply (read_loop_value 5 0 0) in H; auto.
  - destruct H as (enc & x & E1 & E2 & E3 & E4). exists enc. split; auto.
    change (2 ^ (7 * N.of_nat 0)) with 1 in E3. replace d with x by lia. split; auto.
  - reflexivity.
Qed.

(* ----------------------------------------------------------- lines and words *)

Lemma split_lines_cons w : ~ In 10 w -> forall cur rest,
  split_lines cur (w ++ 10 :: rest) = (cur ++ w) :: split_lines [] rest.
Proof.
  induction w as [|x w IH]; intros Hw cur rest.
  - cbn [app split_lines]. change (10 =? 10) with true. rewrite app_nil_r. reflexivity.
  - cbn [app split_lines]. destruct (x =? 10) eqn:E. { apply N.eqb_eq in E. subst. simpl in Hw. tauto. }
    rewrite IH by (simpl in Hw; tauto). rewrite <- app_assoc. reflexivity.
Qed.

Definition ended (ws : list bytes) : bytes := concat (map (fun w => w ++ [10]) ws).

Lemma split_lines_ended ws rest : (forall w, In w ws -> ~ In 10 w) ->
  split_lines [] (ended ws ++ rest) = ws ++ split_lines [] rest.
Proof.
  induction ws as [|w ws IH]; intros H; auto.
  unfold ended in *. cbn [map concat]. rewrite <- !app_assoc. cbn [app].
  rewrite split_lines_cons by (apply H; left; auto). rewrite IH by (intros; apply H; right; auto).
  reflexivity.
Qed.

Lemma skip_lines_one w n rest : ~ In 10 w ->
  skip_lines (S n) (w ++ 10 :: rest) = skip_lines n rest.
Proof.
  induction w as [|x w IH]; intros Hw.
  - simpl. destruct n; auto.
  - cbn [app]. simpl. destruct (x =? 10) eqn:E. { apply N.eqb_eq in E. subst. simpl in Hw. tauto. }
    apply IH. simpl in Hw; tauto.
Qed.

Lemma skip_lines_ended ws rest : (forall w, In w ws -> ~ In 10 w) ->
  skip_lines (length ws) (ended ws ++ rest) = Ok rest.
Proof.
  induction ws as [|w ws IH]; intros H; auto.
  unfold ended in *. cbn [map concat length]. rewrite <- !app_assoc. cbn [app].
  rewrite skip_lines_one by (apply H; left; auto). apply IH. intros; apply H; right; auto.
Qed.

Lemma split_on_cons sep s : exists w ws, split_on sep s = w :: ws.
Proof.
  destruct s as [|x s]; cbn [split_on]; eauto. destruct (x =? sep); eauto.
  destruct (split_on sep s); eauto.
Qed.

Lemma split_spaces_split_on s : forall cur, split_spaces cur s =
  match split_on 32 s with [] => [cur] | w :: ws => (cur ++ w) :: ws end.
Proof.
  induction s as [|x s IH]; intros cur; cbn [split_spaces split_on].
  - rewrite app_nil_r; auto.
  - destruct (split_on_cons 32 s) as (w & ws & E). rewrite !IH, E. destruct (x =? 32).
    + rewrite app_nil_r. reflexivity.
    + rewrite <- app_assoc. reflexivity.
Qed.

Lemma split_spaces_words ws : ws <> [] -> (forall w, In w ws -> ~ In 32 w) ->
  split_spaces [] (join [32] ws) = ws.
Proof.
  intros Hne H. rewrite split_spaces_split_on, split_on_join by auto.
  destruct ws; [contradiction|]. reflexivity.
Qed.

Lemma utf8_ascii l : Forall (fun x => x < 128) l -> utf8_valid l = true.
Proof.
  induction 1 as [|x l Hx H IH]; auto. cbn [utf8_valid]. replace (x <? 128) with true by lia. auto.
Qed.

Lemma from_utf8_ascii l : Forall (fun x => x < 128) l -> from_utf8 l = Ok l.
Proof. intros H. unfold from_utf8. rewrite utf8_ascii by auto. reflexivity. Qed.

Lemma dec_ascii n : Forall (fun x => 48 <= x <= 57) (dec n).
Proof. apply Forall_forall. intros x. apply dec_digit. Qed.

Lemma join_ascii ws : Forall (Forall (fun x => x < 128)) ws -> Forall (fun x => x < 128) (join [32] ws).
Proof.
  induction 1 as [|w ws Hw H IH]; simpl; auto. destruct ws; auto.
  apply Forall_app. split; auto. constructor; [lia|]. exact IH.
Qed.

Lemma join_no10 ws : (forall w, In w ws -> ~ In 10 w) -> ~ In 10 (join [32] ws).
Proof.
  induction ws as [|w ws IH]; simpl; intros H; auto. destruct ws as [|w' ws']; auto.
  intros X. apply in_app_iff in X. destruct X as [X|[X|X]]; [|discriminate|].
  - apply (H w); auto.
  - apply IH; auto.
Qed.

Lemma parse_digits_ok : forall l acc, forallb is_digit l = true ->
  fold_left (fun n c => 10 * n + (c - 48)) l acc <= usize_max ->
  parse_digits acc l = Ok (fold_left (fun n c => 10 * n + (c - 48)) l acc).
Proof.
  assert (Mono : forall l acc, acc <= fold_left (fun n c => 10 * n + (c - 48)) l acc).
  { induction l as [|x l IH]; intros acc; simpl; [lia|].
    specialize (IH (10 * acc + (x - 48))). lia. }
  induction l as [|x l IH]; intros acc Hd Hb; auto.
  cbn [parse_digits fold_left forallb] in *. apply andb_true_iff in Hd. destruct Hd as (Hx & Hl).
  change (in_range 48 57 x) with (is_digit x). rewrite Hx. cbn [assert_ bind].
  replace (acc * 10 + (x - 48)) with (10 * acc + (x - 48)) by lia.
  pose proof (Mono l (10 * acc + (x - 48))).
  replace (10 * acc + (x - 48) <=? usize_max) with true by lia. cbn [assert_ bind]. auto.
Qed.

Lemma convert_dec n : n <= usize_max -> convert_string_to_number (dec n) = Ok n.
Proof.
  intros H. destruct (dec_spec n) as (D1 & D2 & D3).
  unfold convert_string_to_number. destruct (dec n) as [|x r] eqn:E; [contradiction|].
  assert (Hx : 48 <= x <= 57). { apply (dec_digit n). rewrite E. left; auto. }
  assert (G : parse_digits 0 (x :: r) = Ok n).
  { rewrite parse_digits_ok; auto. - f_equal. exact D3. - unfold digits_value in D3. lia. }
  destruct x as [|p]; auto.
  do 6 (destruct p as [p|p|]; auto; try lia).
Qed.

(* ----------------------------------------------------------------- the file *)

Definition header_of (c : circuit) : Header :=
  mkHeader (c_max c) (c_inputs c) (lenN (c_latches c)) (lenN (c_outputs c)) (lenN (c_ands c))
    (lenN (c_bad c)) (lenN (c_constraints c)) 0 0.

Definition header_line (st : style) (c : circuit) : bytes :=
  words (bs "aig" :: map dec (header_numbers st c)).

Lemma header_small st c : file_fits c -> Forall (fun n => n <= usize_max) (header_numbers st c).
Proof.
  intros (H1 & H2 & H3 & H4). unfold header_numbers.
  change (2 ^ 37) with 137438953472 in *. change (2 ^ 60) with 1152921504606846976 in *.
  unfold c_max in *. unfold usize_max in *. apply Forall_app. split.
  - repeat constructor; unfold c_max; lia.
  - apply Forall_forall. intros x Hx. 
    assert (Hy : In x [lenN (c_bad c); lenN (c_constraints c); 0]).
    { clear - Hx. revert Hx. generalize [lenN (c_bad c); lenN (c_constraints c); 0].
      generalize (Nat.max (st_fields st) (needed_fields c)).
      induction n; intros l H; [inv H|]. destruct l; [inv H|]. simpl in *. destruct H; auto. }
    simpl in Hy. intuition lia.
Qed.


Lemma dec_no32 n : ~ In 32 (dec n).
Proof. apply dec_no. lia. Qed.
Lemma dec_no10 n : ~ In 10 (dec n).
Proof. apply dec_no. lia. Qed.
Lemma dec_lt128 n : Forall (fun x => x < 128) (dec n).
Proof. eapply Forall_impl; [|apply dec_ascii]. cbv beta. intros. lia. Qed.

Lemma header_line_ok st c : file_fits c ->
  forall rest, check_first_line (header_line st c :: rest) = Ok (header_of c).
Proof.
  intros Hf rest. pose proof (header_small st c Hf) as Hs.
  unfold check_first_line. change (index (header_line st c :: rest) 0) with (Ok (header_line st c)).
  cbn [bind]. rewrite from_utf8_ascii.
  2:{ apply join_ascii. constructor; [vm_compute; repeat constructor|].
      apply Forall_map. apply Forall_forall. intros. apply dec_lt128. }
  cbn [bind]. unfold header_line, words. rewrite split_spaces_words.
  2:{ discriminate. }
  2:{ intros w [<-|Hw]; [vm_compute; intuition discriminate|].
      apply in_map_iff in Hw. destruct Hw as (n & <- & _). apply dec_no32. }
  cbv zeta. unfold header_numbers in *.
  assert (Hn : needed_fields c = 0%nat -> lenN (c_bad c) = 0 /\ lenN (c_constraints c) = 0).
  { unfold needed_fields. destruct (lenN (c_constraints c) =? 0) eqn:E1;
      destruct (lenN (c_bad c) =? 0) eqn:E2; simpl; intros; try discriminate; lia. }
  assert (Hn1 : (needed_fields c <= 1)%nat -> lenN (c_constraints c) = 0).
  { unfold needed_fields. destruct (lenN (c_constraints c) =? 0) eqn:E1; simpl; intros; lia. }
  remember (Nat.max (st_fields st) (needed_fields c)) as k eqn:Ek.
  assert (Hk : (k <= 3 -> True)%nat) by auto.
  assert (Fin : forall b cc j, b = lenN (c_bad c) -> cc = lenN (c_constraints c) -> j = 0 ->
    (_ <- assert_ (c_max c =? c_inputs c + lenN (c_latches c) + lenN (c_ands c)) ;;
     _ <- assert_ (0 =? 0) ;;
     _ <- assert_ (j =? 0) ;;
     Ok (mkHeader (c_max c) (c_inputs c) (lenN (c_latches c)) (lenN (c_outputs c)) (lenN (c_ands c))
           b cc j 0)) = Ok (header_of c)).
  { intros b cc j -> -> ->. replace (c_max c =? _) with true by (unfold c_max; lia). reflexivity. }
  rewrite Forall_forall in Hs.
  destruct k as [|[|[|k]]]; cbn [firstn app map] in *;
    cbn [indexn nth_error unwrap bind optional_number length Nat.ltb Nat.leb list_eqb assert_ andb];
    change (list_eqb (bs "aig") [97; 105; 103]) with true; cbn [assert_ bind];
    repeat (rewrite convert_dec by (apply Hs; simpl; tauto); cbn [bind]).
  - apply Fin; try reflexivity; symmetry; apply Hn; lia.
  - apply Fin; try reflexivity; symmetry; apply Hn1; lia.
  - apply Fin; reflexivity.
  - destruct k; cbn [firstn]; unfold optional_number; cbn [nth_error];
      repeat (rewrite convert_dec by (apply Hs; simpl; tauto); cbn [bind]); apply Fin; reflexivity.
Qed.

Definition latch_texts (st : style) (c : circuit) : list bytes :=
  map (fun e => words (latch_words st (fst e) (snd e))) (number_items (c_latches c)).
Definition literal_texts (c : circuit) : list bytes :=
  map dec (c_outputs c ++ c_bad c ++ c_constraints c).
Definition all_texts (st : style) (c : circuit) : list bytes :=
  header_line st c :: latch_texts st c ++ literal_texts c.

Lemma ended_app l1 l2 : ended (l1 ++ l2) = ended l1 ++ ended l2.
Proof. unfold ended. rewrite map_app, concat_app. reflexivity. Qed.

Lemma encode_texts st c : encode st c =
  ended (all_texts st c) ++ concat (map (gate_bytes c) (number_items (c_ands c))).
Proof.
  unfold encode, all_texts. change (header_line st c :: ?l) with ([header_line st c] ++ l).
  rewrite !ended_app, <- !app_assoc. f_equal; [|f_equal].
  - unfold ended. simpl. rewrite app_nil_r. reflexivity.
  - unfold ended, latch_texts. rewrite map_map. reflexivity.
  - f_equal. unfold ended, literal_texts. rewrite map_map. reflexivity.
Qed.

Lemma latch_words_no st j x w k : (k < 48 \/ 57 < k) -> In w (latch_words st j x) -> ~ In k w.
Proof.
  intros Hk. unfold latch_words. destruct (_ && _); simpl; intuition; subst; eapply dec_no; eauto.
Qed.

Lemma words_no10 ws : (forall w, In w ws -> ~ In 10 w) -> ~ In 10 (words ws).
Proof. apply join_no10. Qed.

Lemma texts_no10 st c w : In w (all_texts st c) -> ~ In 10 w.
Proof.
  unfold all_texts. intros [<-|H].
  - apply words_no10. intros w [<-|Hw]; [vm_compute; intuition discriminate|].
    apply in_map_iff in Hw. destruct Hw as (n & <- & _). apply dec_no10.
  - apply in_app_iff in H. destruct H as [H|H].
    + apply in_map_iff in H. destruct H as (e & <- & _). apply words_no10.
      intros w. apply latch_words_no. lia.
    + apply in_map_iff in H. destruct H as (n & <- & _). apply dec_no10.
Qed.

Lemma latch_words_len st j x : (length (latch_words st j x) =? 1)%nat = false ->
  latch_words st j x = [dec (fst x); dec (snd x)].
Proof. unfold latch_words. destruct (_ && _); simpl; auto. discriminate. Qed.

Lemma latch_line_encode st c lines j nx r : circuit_wf c -> file_fits c ->
  nth_error (c_latches c) j = Some (nx, r) ->
  nth_error lines (S j) = Some (words (latch_words st j (nx, r))) ->
  latch_line (header_of c) lines (N.of_nat j) = Ok (nx, r).
Proof.
  intros (Hw & _) (Hf & _) Hj Hl. unfold latch_line.
  assert (L : latch c (latch_var c j) nx r) by (exists j; auto).
  destruct (Hw _ _ _ L) as (Hrange & Hreset).
  assert (Hv : latch_var c j <= c_max c) by (apply latch_le_max; exists nx, r; auto).
  change (2 ^ 37) with 137438953472 in Hf. unfold lit_in_range, lit_var in Hrange.
  unfold index. replace (N.to_nat (N.of_nat j + 1)) with (S j) by lia. rewrite Hl.
  cbn [unwrap bind]. unfold words. rewrite from_utf8_ascii.
  2:{ apply join_ascii. unfold latch_words. destruct (_ && _); repeat constructor; apply dec_lt128. }
  cbn [bind]. rewrite split_spaces_words.
  2:{ unfold latch_words; discriminate. }
  2:{ intros w. apply latch_words_no. lia. }
  cbv zeta. unfold check_literal. cbn [header_of h_max h_inputs].
  unfold latch_words. cbn [fst snd].
  destruct ((r =? 0) && negb (st_reset st j)) eqn:E.
  - cbn [length Nat.eqb orb assert_ bind indexn nth_error unwrap].
    rewrite convert_dec by (unfold usize_max; lia). cbn [bind].
    rewrite shiftr_var. unfold lit_var. replace (nx / 2 <=? c_max c) with true by lia. cbn [assert_ bind].
    apply andb_true_iff in E. destruct E as (E & _). apply N.eqb_eq in E. subst. reflexivity.
  - cbn [length Nat.eqb orb assert_ bind indexn nth_error unwrap].
    rewrite convert_dec by (unfold usize_max; lia). cbn [bind].
    rewrite shiftr_var. unfold lit_var. replace (nx / 2 <=? c_max c) with true by lia. cbn [assert_ bind].
    rewrite convert_dec by (unfold usize_max; lia). cbn [bind].
    replace ((r =? 0) || (r =? 1) || (r =? 2 * (N.of_nat j + c_inputs c + 1))) with true
      by (unfold latch_var in Hreset; lia).
    reflexivity.
Qed.

Lemma literal_lines_encode c lines ls n skip : file_fits c -> Forall (lit_in_range c) ls ->
  lenN ls = n ->
  (forall j l, nth_error ls j = Some l ->
     nth_error lines (S j + N.to_nat skip) = Some (dec l)) ->
  create_literal_lines (header_of c) lines n skip = Ok ls.
Proof.
  intros (Hf & _) HF Hlen Hl. unfold create_literal_lines. apply mapM_nth.
  { unfold range. rewrite map_length, seq_length. unfold lenN in Hlen. lia. }
  intros i x y Hx Hy. rewrite range_numbers in Hx.
  rewrite numbers_nth in Hx by (apply nth_error_some_lt in Hy; unfold lenN in Hlen; lia). inv Hx.
  unfold index. replace (N.to_nat (0 + N.of_nat i + 1 + skip)) with (S i + N.to_nat skip)%nat by lia.
  rewrite (Hl _ _ Hy). cbn [unwrap bind]. rewrite from_utf8_ascii by apply dec_lt128. cbn [bind].
  rewrite Forall_forall in HF. pose proof (HF y (nth_error_In _ _ Hy)) as Hr.
  unfold lit_in_range, lit_var in Hr. change (2 ^ 37) with 137438953472 in Hf.
  rewrite convert_dec by (unfold usize_max; lia). cbn [bind].
  unfold check_literal. cbn [header_of h_max]. rewrite shiftr_var. unfold lit_var.
  replace (y / 2 <=? c_max c) with true by lia. reflexivity.
Qed.

Lemma read_gates_encode c rest : circuit_wf c -> file_fits c -> forall gs k,
  (forall j g, nth_error gs j = Some g -> nth_error (c_ands c) (k + j) = Some g) ->
  read_gates (length gs) (2 * (c_inputs c + lenN (c_latches c) + N.of_nat k))
    (concat (map (gate_bytes c) (combine (seq k (length gs)) gs)) ++ rest) = Ok (gs, rest).
Proof.
  intros (_ & _ & _ & _ & Hw) (Hf & _). induction gs as [|(r0, r1) gs IH]; intros k H; [reflexivity|].
  cbn [length read_gates seq combine map concat].
  assert (Hk : nth_error (c_ands c) k = Some (r0, r1)).
  { rewrite <- (Nat.add_0_r k). apply H. reflexivity. }
  assert (G : gate c (gate_var c k) r0 r1) by (exists k; auto).
  pose proof (Hw _ _ _ G) as Hr. pose proof (gate_range _ _ _ _ G) as Hm.
  change (2 ^ 37) with 137438953472 in Hf.
  replace (2 * (c_inputs c + lenN (c_latches c) + N.of_nat k) + 2) with (2 * gate_var c k)
    by (unfold gate_var; lia).
  cbn [gate_bytes]. rewrite <- !app_assoc.
  rewrite read_delta_encode by (change (2 ^ 38) with 274877906944; lia). cbn [bind].
  replace (2 * gate_var c k - r0 <=? 2 * gate_var c k) with true by lia. cbn [assert_ bind].
  replace (2 * gate_var c k - (2 * gate_var c k - r0)) with r0 by lia.
  rewrite read_delta_encode by (change (2 ^ 38) with 274877906944; lia). cbn [bind].
  replace (r0 - r1 <=? r0) with true by lia. cbn [assert_ bind].
  replace (r0 - (r0 - r1)) with r1 by lia.
  replace ((r0 <? 2 * gate_var c k) && (r1 <=? r0)) with true by lia. cbn [assert_ bind].
  replace (2 * gate_var c k) with (2 * (c_inputs c + lenN (c_latches c) + N.of_nat (S k)))
    by (unfold gate_var; lia).
  rewrite (IH (S k)); [reflexivity|].
  intros j g Hj. replace (S k + j)%nat with (k + S j)%nat by lia. apply H. exact Hj.
Qed.

Lemma parse_circuit_encode st c rest : circuit_wf c -> file_fits c ->
  parse_circuit (encode st c ++ rest) = Ok (c, rest).
Proof.
  intros Hwf Hf. unfold parse_circuit. cbv zeta.
  rewrite encode_texts, <- app_assoc.
  rewrite split_lines_ended by apply texts_no10.
  set (gb := concat _). unfold all_texts at 1. cbn [app].
  rewrite header_line_ok by auto. cbn [bind].
  assert (Ha : allocate_vectors (header_of c) = Ok [zero_node]).
  { destruct Hf as (F1 & F2 & F3 & F4).
    change (2 ^ 37) with 137438953472 in *. change (2 ^ 60) with 1152921504606846976 in *.
    unfold allocate_vectors. cbn [header_of h_max h_inputs h_latches h_outputs h_ands h_bad
      h_constraints]. unfold isize_max, c_max in *.
    repeat match goal with |- context [assert_ (?x <=? ?y)] =>
      replace (x <=? y) with true by lia; cbn [assert_ bind] end. reflexivity. }
  rewrite Ha. cbn [bind].
  set (lines := (all_texts st c) ++ split_lines [] (gb ++ rest)).
  assert (EL : forall j nx r, nth_error (c_latches c) j = Some (nx, r) ->
             nth_error lines (S j) = Some (words (latch_words st j (nx, r)))).
  { intros j nx r Hj. unfold lines, all_texts. cbn [app nth_error].
    pose proof (nth_error_some_lt _ _ _ Hj).
    rewrite <- app_assoc, nth_error_app1
      by (unfold latch_texts; rewrite map_length, number_items_length; auto).
    unfold latch_texts. rewrite nth_error_map, (number_items_nth _ _ _ Hj). reflexivity. }
  assert (EO : forall j l, nth_error (c_outputs c ++ c_bad c ++ c_constraints c) j = Some l ->
             nth_error lines (S j + length (c_latches c)) = Some (dec l)).
  { intros j l Hj. unfold lines, all_texts. cbn [app nth_error plus].
    pose proof (nth_error_some_lt _ _ _ Hj) as Hlt.
    assert (LL : length (latch_texts st c) = length (c_latches c))
      by (unfold latch_texts; rewrite map_length, number_items_length; auto).
    rewrite <- app_assoc, nth_error_app2 by lia. rewrite LL.
    replace (j + length (c_latches c) - length (c_latches c))%nat with j by lia.
    rewrite nth_error_app1 by (unfold literal_texts; rewrite map_length; auto).
    unfold literal_texts. rewrite nth_error_map, Hj. reflexivity. }
  change (header_line st c :: (latch_texts st c ++ literal_texts c) ++ split_lines [] (gb ++ rest))
    with lines.
  pose proof Hwf as (W1 & W2 & W3 & W4 & W5).
  rewrite (mapM_nth _ _ (c_latches c)).
  2:{ unfold range. rewrite map_length, seq_length. cbn [header_of h_latches]. unfold lenN. lia. }
  2:{ intros i x (nx, r) Hx Hy. rewrite range_numbers in Hx. cbn [header_of h_latches] in Hx.
      rewrite numbers_nth in Hx by (apply nth_error_some_lt in Hy; unfold lenN; lia). inv Hx.
      rewrite N.add_0_l. eapply latch_line_encode; eauto. }
  cbn [bind header_of h_outputs h_latches h_bad h_constraints].
  fold (header_of c).
  rewrite (literal_lines_encode c lines (c_outputs c)); auto.
  2:{ intros j l Hj. unfold lenN. rewrite Nat2N.id. apply EO.
      rewrite nth_error_app1; auto. eapply nth_error_some_lt; eauto. }
  cbn [bind].
  rewrite (literal_lines_encode c lines (c_bad c)); auto.
  2:{ intros j l Hj. unfold lenN.
      replace (S j + N.to_nat (N.of_nat (length (c_latches c)) + N.of_nat (length (c_outputs c))))%nat
        with (S (length (c_outputs c) + j) + length (c_latches c))%nat by lia. apply EO.
      rewrite nth_error_app2 by lia.
      replace (length (c_outputs c) + j - length (c_outputs c))%nat with j by lia.
      rewrite nth_error_app1; auto. eapply nth_error_some_lt; eauto. }
  cbn [bind].
  rewrite (literal_lines_encode c lines (c_constraints c)); auto.
  2:{ intros j l Hj. unfold lenN.
      replace (S j + N.to_nat (N.of_nat (length (c_latches c)) + N.of_nat (length (c_outputs c)) + N.of_nat (length (c_bad c))))%nat
        with (S (length (c_outputs c) + (length (c_bad c) + j)) + length (c_latches c))%nat by lia. apply EO.
      rewrite nth_error_app2 by lia.
      replace (length (c_outputs c) + (length (c_bad c) + j) - length (c_outputs c))%nat
        with (length (c_bad c) + j)%nat by lia.
      rewrite nth_error_app2 by lia.
      replace (length (c_bad c) + j - length (c_bad c))%nat with j by lia. auto. }
  cbn [bind].
  replace (N.to_nat _) with (length (all_texts st c)).
  2:{ unfold all_texts, latch_texts, literal_texts. cbn [length].
      rewrite !app_length, !map_length, number_items_length, !app_length. unfold lenN. lia. }
  rewrite skip_lines_ended by apply texts_no10.
  cbn [bind header_of h_ands h_inputs].
  replace (N.to_nat (lenN (c_ands c))) with (length (c_ands c)) by (unfold lenN; lia).
  unfold gb, number_items.
  pose proof (read_gates_encode c rest Hwf Hf (c_ands c) 0 (fun j g Hj => Hj)) as RG.
  change (N.of_nat 0) with 0 in RG. rewrite N.add_0_r in RG.
  rewrite RG. cbn [bind].
  destruct c; reflexivity.
Qed.
