(** The parser accepts exactly the files of SpecFile.v: texts, numbers and lines. *)
From Verif Require Import Base Aig AigParse Spec SpecAig SpecText SpecAiger SpecFile Tac TextFacts
  AigFacts SimFacts ParseFacts EncodeFacts SymbolFacts.
Open Scope N_scope.
Import String.StringSyntax.
Arguments bs s%string_scope.

(* ----------------------------------------------------------------------- UTF-8 *)

Lemma unicode_cons x t : scalar x -> unicode t -> unicode (utf8_char x ++ t).
Proof. intros Hx (l & Hl & ->). exists (x :: l). split; [constructor; auto|reflexivity]. Qed.

Lemma utf8_valid_unicode : forall n s, (length s <= n)%nat -> utf8_valid s = true -> unicode s.
Proof.
  induction n as [|n IH]; intros s Hl H.
  { destruct s; [|simpl in Hl; lia]. exists []. split; [constructor|reflexivity]. }
  destruct s as [|x r]. { exists []. split; [constructor|reflexivity]. }
  cbn [utf8_valid length] in *.
  destruct (x <? 128) eqn:E1.
  { apply IH in H; [|lia]. apply (unicode_cons x) in H; [|unfold scalar; lia].
    unfold utf8_char in H. rewrite E1 in H. exact H. }
  destruct (in_range 194 223 x) eqn:E2; unfold in_range in E2.
  { destruct r as [|y r]; [discriminate|]. apply andb_true_iff in H. destruct H as (H1 & H).
    unfold in_range in H1. cbn [length] in Hl. apply IH in H; [|lia].
    apply (unicode_cons ((x - 192) * 64 + (y - 128))) in H; [|unfold scalar; lia].
    unfold utf8_char in H. replace (_ <? 128) with false in H by lia.
    replace (_ <? 2048) with true in H by lia. cbn [app] in H.
    replace (192 + ((x - 192) * 64 + (y - 128)) / 64) with x in H by lia.
    replace (128 + ((x - 192) * 64 + (y - 128)) mod 64) with y in H by lia. exact H. }
  destruct (in_range 224 239 x) eqn:E3; unfold in_range in E3.
  { destruct r as [|y [|z r]]; [discriminate..|]. rewrite !andb_true_iff in H.
    destruct H as ((H1 & H2) & H). cbn [length] in Hl. apply IH in H; [|lia].
    set (s := (x - 224) * 4096 + (y - 128) * 64 + (z - 128)).
    assert (Hs : scalar s /\ 2048 <= s < 65536 /\ 224 + s / 4096 = x /\ 128 + (s / 64) mod 64 = y /\
                 128 + s mod 64 = z).
    { unfold in_range in *. unfold scalar. subst s.
      destruct (x =? 224) eqn:Ea; [|destruct (x =? 237) eqn:Eb]; lia. }
    destruct Hs as (S1 & S2 & S3 & S4 & S5). apply (unicode_cons s) in H; auto.
    unfold utf8_char in H. replace (_ <? 128) with false in H by lia.
    replace (_ <? 2048) with false in H by lia. replace (_ <? 65536) with true in H by lia.
    rewrite S3, S4, S5 in H. exact H. }
  destruct (in_range 240 244 x) eqn:E4; [|discriminate]. unfold in_range in E4.
  destruct r as [|y [|z [|w r]]]; [discriminate..|]. rewrite !andb_true_iff in H.
  destruct H as (((H1 & H2) & H3) & H). cbn [length] in Hl. apply IH in H; [|lia].
  set (s := (x - 240) * 262144 + (y - 128) * 4096 + (z - 128) * 64 + (w - 128)).
  assert (Hs : scalar s /\ 65536 <= s /\ 240 + s / 262144 = x /\ 128 + (s / 4096) mod 64 = y /\
               128 + (s / 64) mod 64 = z /\ 128 + s mod 64 = w).
  { unfold in_range in *. unfold scalar. subst s.
    destruct (x =? 240) eqn:Ea; [|destruct (x =? 244) eqn:Eb]; lia. }
  destruct Hs as (S1 & S2 & S3 & S4 & S5 & S6). apply (unicode_cons s) in H; auto.
  unfold utf8_char in H. replace (_ <? 128) with false in H by lia.
  replace (_ <? 2048) with false in H by lia. replace (_ <? 65536) with false in H by lia.
  rewrite S3, S4, S5, S6 in H. exact H.
Qed.

Lemma utf8_valid_iff s : utf8_valid s = true <-> unicode s.
Proof.
  split; [eapply utf8_valid_unicode; reflexivity|]. intros (l & H & ->). apply utf8_valid_utf8; auto.
Qed.

Lemma from_utf8_ok s r : from_utf8 s = Ok r <-> r = s /\ unicode s.
Proof.
  rewrite <- utf8_valid_iff. unfold from_utf8. destruct (utf8_valid s); cbn.
  - split; [intros H; inv H; auto|intros (-> & _); auto].
  - split; [discriminate|intros (_ & X); discriminate].
Qed.

(* --------------------------------------------------------------------- numbers *)

Notation value l acc := (fold_left (fun n c => 10 * n + (c - 48)) l acc).

Lemma value_mono : forall l acc, acc <= value l acc.
Proof.
  induction l as [|x l IH]; intros acc; cbn [fold_left]; [lia|].
  specialize (IH (10 * acc + (x - 48))). lia.
Qed.

Lemma parse_digits_iff : forall l acc n, acc <= usize_max ->
  (parse_digits acc l = Ok n <-> forallb is_digit l = true /\ n = value l acc /\ n <= usize_max).
Proof.
  intros l acc n Ha. split.
  - revert acc Ha. induction l as [|x l IH]; intros acc Ha H; cbn [parse_digits] in H; binds.
    + cbn. auto.
    + apply IH in H; [|lia]. cbn [forallb fold_left].
      change (in_range 48 57 x) with (is_digit x) in *.
      replace (10 * acc + (x - 48)) with (acc * 10 + (x - 48)) by lia.
      repeat match goal with X : _ = true |- _ => rewrite X end. tauto.
  - intros (H1 & -> & H2). apply parse_digits_ok; auto.
Qed.

Lemma convert_eq l : convert_string_to_number l =
  match l with
  | [] => Panic
  | x :: r => if x =? 43 then match r with [] => Panic | _ => parse_digits 0 r end
              else parse_digits 0 l
  end.
Proof.
  destruct l as [|x r]; [reflexivity|]. destruct (x =? 43) eqn:E.
  - apply N.eqb_eq in E. subst x. destruct r; reflexivity.
  - unfold convert_string_to_number. destruct x as [|p]; [reflexivity|].
    do 6 (destruct p as [p|p|]; try reflexivity). discriminate.
Qed.

Lemma convert_iff t n : convert_string_to_number t = Ok n <-> numeral n t.
Proof.
  rewrite convert_eq. unfold numeral, read_number. change (2 ^ 64) with (usize_max + 1). split.
  - destruct t as [|x r]; [discriminate|]. destruct (x =? 43) eqn:E.
    + apply N.eqb_eq in E. subst x. destruct r as [|y r]; [discriminate|]. intros H.
      apply parse_digits_iff in H; [|unfold usize_max; lia]. destruct H as (H1 & -> & H2).
      exists (y :: r). split; [auto|]. cbn [nonempty andb]. rewrite H1. split; auto. lia.
    + intros H. apply parse_digits_iff in H; [|unfold usize_max; lia]. destruct H as (H1 & -> & H2).
      exists (x :: r). split; [auto|]. cbn [nonempty andb]. rewrite H1. split; auto. lia.
  - intros (ds & Ht & Hv & Hn). destruct ds as [|d ds]; [discriminate|]. cbn [nonempty andb] in Hv.
    destruct (forallb is_digit (d :: ds)) eqn:Ed; [|discriminate]. injection Hv as Hv.
    assert (P : parse_digits 0 (d :: ds) = Ok n).
    { apply parse_digits_iff; [unfold usize_max; lia|]. split; auto. split; auto. lia. }
    destruct Ht as [-> | ->].
    + cbn [forallb] in Ed. unfold is_digit in Ed. replace (d =? 43) with false by lia. exact P.
    + replace (43 =? 43) with true by lia. exact P.
Qed.

Lemma numeral_bytes n t : numeral n t -> Forall (fun x => x = 43 \/ 48 <= x <= 57) t.
Proof.
  intros (ds & Ht & Hv & _). unfold read_number in Hv.
  destruct (nonempty ds && forallb is_digit ds) eqn:E; [|discriminate].
  apply andb_true_iff in E. destruct E as (_ & E). rewrite forallb_forall in E.
  assert (F : Forall (fun x => x = 43 \/ 48 <= x <= 57) ds).
  { apply Forall_forall. intros x Hx. apply E in Hx. unfold is_digit in Hx. lia. }
  destruct Ht as [-> | ->]; auto.
Qed.

Lemma numeral_nonempty n t : numeral n t -> t <> [].
Proof. intros (ds & [-> | ->] & Hv & _); [|discriminate]. destruct ds; [discriminate|discriminate]. Qed.

Lemma numeral_no k n t : k <> 43 -> (k < 48 \/ 57 < k) -> numeral n t -> ~ In k t.
Proof.
  intros H1 H2 H X. apply numeral_bytes in H. rewrite Forall_forall in H. apply H in X. lia.
Qed.

Lemma numeral_ascii n t : numeral n t -> Forall (fun x => x < 128) t.
Proof. intros H. apply numeral_bytes in H. eapply Forall_impl; [|exact H]. cbv beta. intros; lia. Qed.

Lemma numerals_ascii ns ts : Forall2 numeral ns ts -> Forall (Forall (fun x => x < 128)) ts.
Proof. induction 1; constructor; auto. eapply numeral_ascii; eauto. Qed.

Lemma numerals_no k ns ts : k <> 43 -> (k < 48 \/ 57 < k) -> Forall2 numeral ns ts ->
  forall w, In w ts -> ~ In k w.
Proof.
  intros H1 H2 H. induction H as [|n t ns ts Hn H IH]; intros w Hw; [destruct Hw|].
  destruct Hw as [<-|Hw]; auto. eapply numeral_no; eauto.
Qed.

Lemma ascii_unicode t : Forall (fun x => x < 128) t -> unicode t.
Proof. intros H. apply utf8_valid_iff. apply utf8_ascii. auto. Qed.

(* --------------------------------------------------------------- words and lines *)

Lemma split_spaces_spec : forall s cur, ~ In 32 cur ->
  split_spaces cur s <> [] /\ join [32] (split_spaces cur s) = cur ++ s /\
  forall w, In w (split_spaces cur s) -> ~ In 32 w.
Proof.
  induction s as [|x s IH]; intros cur Hc; cbn [split_spaces].
  - split; [discriminate|]. cbn [join]. rewrite app_nil_r. split; auto.
    intros w [<-|[]]; auto.
  - destruct (x =? 32) eqn:E.
    + apply N.eqb_eq in E. subst x. destruct (IH [] (fun X => match X with end)) as (I1 & I2 & I3).
      split; [discriminate|]. split.
      * destruct (split_spaces [] s) as [|w ws]; [contradiction|].
        change (join [32] (cur :: w :: ws)) with (cur ++ [32] ++ join [32] (w :: ws)).
        rewrite I2. reflexivity.
      * intros w [<-|Hw]; auto.
    + assert (Hc' : ~ In 32 (cur ++ [x])).
      { intros X. apply in_app_iff in X. destruct X as [X|[X|[]]]; auto.
        subst x. rewrite N.eqb_refl in E. discriminate. }
      destruct (IH _ Hc') as (I1 & I2 & I3). split; auto. split; auto.
      rewrite I2, <- app_assoc. reflexivity.
Qed.

Lemma split_spaces_iff s ws : split_spaces [] s = ws <->
  ws <> [] /\ s = words ws /\ forall w, In w ws -> ~ In 32 w.
Proof.
  split.
  - intros <-. destruct (split_spaces_spec s [] (fun X => match X with end)) as (H1 & H2 & H3).
    split; auto.
  - intros (H1 & -> & H2). apply split_spaces_words; auto.
Qed.

Lemma skip_lines_spec : forall n data rest, skip_lines n data = Ok rest ->
  exists ws, length ws = n /\ (forall w, In w ws -> ~ In 10 w) /\ data = ended ws ++ rest.
Proof.
  induction n as [|n IH]; intros data rest H.
  { inv H. exists []. split; [reflexivity|]. split; [intros w []|reflexivity]. }
  assert (G : forall data cur, ~ In 10 cur ->
    (fix go (data : bytes) : res bytes :=
         match data with
         | [] => Panic
         | byte :: r => if byte =? 10 then skip_lines n r else go r
         end) data = Ok rest ->
    exists w ws, length ws = n /\ ~ In 10 w /\ (forall w, In w ws -> ~ In 10 w) /\
      cur ++ data = w ++ [10] ++ ended ws ++ rest).
  { induction data0 as [|x r IHd]; intros cur Hc X; [discriminate|].
    destruct (x =? 10) eqn:E.
    - apply IH in X. destruct X as (ws & H1 & H2 & ->). apply N.eqb_eq in E. subst x.
      exists cur, ws. auto.
    - destruct (IHd (cur ++ [x])) as (w & ws & H1 & H2 & H3 & H4); auto.
      + intros Y. apply in_app_iff in Y. destruct Y as [Y|[Y|[]]]; auto.
        subst x. rewrite N.eqb_refl in E. discriminate.
      + exists w, ws. split; auto. split; auto. split; auto. rewrite <- H4, <- app_assoc. reflexivity. }
  destruct (G data [] (fun X => match X with end) H) as (w & ws & H1 & H2 & H3 & H4).
  exists (w :: ws). split; [simpl; auto|]. split; [intros v [<-|Hv]; auto|].
  unfold ended in *. cbn [map concat]. rewrite <- !app_assoc. exact H4.
Qed.

(** Any text is a sequence of ended lines and a last line. *)
Lemma split_lines_spec s : exists ws last, s = ended ws ++ last /\ ~ In 10 last /\
  (forall w, In w ws -> ~ In 10 w) /\
  split_lines [] s = ws ++ match last with [] => [] | _ => [last] end.
Proof.
  assert (G : forall s cur, ~ In 10 cur -> exists ws last, cur ++ s = ended ws ++ last /\ ~ In 10 last /\
    (forall w, In w ws -> ~ In 10 w) /\
    split_lines cur s = ws ++ match last with [] => [] | _ => [last] end).
  { clear s. induction s as [|x r IH]; intros cur Hc; cbn [split_lines].
    - exists [], cur. split; [apply app_nil_r|]. split; [exact Hc|]. split; [intros w []|].
      destruct cur; reflexivity.
    - destruct (x =? 10) eqn:E.
      + apply N.eqb_eq in E. subst x. destruct (IH [] (fun X => match X with end)) as (ws & l & H1 & H2 & H3 & H4).
        exists (cur :: ws), l. rewrite H4. split.
        { unfold ended in *. cbn [map concat]. rewrite <- !app_assoc. cbn [app] in *. rewrite H1. reflexivity. }
        split; auto. split; [|reflexivity]. intros w [<-|Hw]; auto.
      + destruct (IH (cur ++ [x])) as (ws & l & H1 & H2 & H3 & H4).
        * intros X. apply in_app_iff in X. destruct X as [X|[X|[]]]; auto.
          subst x. rewrite N.eqb_refl in E. discriminate.
        * exists ws, l. rewrite <- H1, <- app_assoc. auto. }
  exact (G s [] (fun X => match X with end)).
Qed.

Lemma pieces_ended {A} (P Q : A -> bytes -> Prop) l t :
  (forall x t, P x t <-> exists w, Q x w /\ t = w ++ [10]) ->
  (pieces P l t <-> exists ws, Forall2 Q l ws /\ t = ended ws).
Proof.
  intros H. unfold pieces. split.
  - intros (ts & HF & ->). induction HF as [|x t l ts Hx HF (ws & I1 & I2)].
    + exists []. split; [constructor|reflexivity].
    + apply H in Hx. destruct Hx as (w & Hw & ->). exists (w :: ws). split; [constructor; auto|].
      unfold ended in *. cbn [map concat]. rewrite I2. reflexivity.
  - intros (ws & HF & ->). induction HF as [|x w l ws Hx HF (ts & I1 & I2)].
    + exists []. split; [constructor|reflexivity].
    + exists ((w ++ [10]) :: ts). split; [constructor; auto; apply H; eauto|].
      unfold ended in *. cbn [map concat]. rewrite I2. reflexivity.
Qed.

Lemma pieces_app {A} (P : A -> bytes -> Prop) l1 l2 t :
  pieces P (l1 ++ l2) t <-> exists t1 t2, t = t1 ++ t2 /\ pieces P l1 t1 /\ pieces P l2 t2.
Proof.
  unfold pieces. split.
  - intros (ts & HF & ->). apply Forall2_app_inv_l in HF. destruct HF as (u1 & u2 & F1 & F2 & ->).
    exists (concat u1), (concat u2). rewrite concat_app. split; auto. split; eauto.
  - intros (t1 & t2 & -> & (u1 & F1 & ->) & (u2 & F2 & ->)). exists (u1 ++ u2).
    rewrite concat_app. split; auto. apply Forall2_app; auto.
Qed.
