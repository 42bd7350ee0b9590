(** The random choices that make IC3 slow on the circuits of SlowGen.v, and the arithmetic behind them. *)
From Coq Require Import Permutation Sorted.
From Verif Require Import Base Formulas FormulaLogic Aig Fsts Solvers Ic3 Spec SpecAig SpecFsts Tac
  FormulasFacts LogicFacts AigFacts SimFacts AigThms FstsFacts FstsSem TagFacts FstsThms BmcThms StateFacts Ic3Core
  CounterGen SlowGen.
Open Scope N_scope.

(* ------------------------------------------------------------------ bit sets *)

(** Every bit of [m] is a bit of [x]. *)
Definition within (m x : N) : Prop := forall i, N.testbit m i = true -> N.testbit x i = true.

Lemma within_le m x : within m x -> m <= x.
Proof.
  intros H. apply N.ldiff_le. apply N.bits_inj. intros i. rewrite N.ldiff_spec, N.bits_0.
  specialize (H i). destruct (N.testbit m i); cbn [andb]; auto. rewrite H; auto.
Qed.

Lemma within_refl m : within m m. Proof. intros i. auto. Qed.

Lemma within_half m x (b d : bool) : within (2 * m + N.b2n b) (2 * x + N.b2n d) <-> within m x /\ (b = true -> d = true).
Proof.
  split.
  - intros H. split.
    + intros i Hi. specialize (H (N.succ i)). rewrite !N.testbit_succ_r in H. auto.
    + intros Hb. specialize (H 0). rewrite !N.testbit_0_r in H. auto.
  - intros (H1 & H2) i. destruct (N.eq_dec i 0) as [->|Hi].
    + rewrite !N.testbit_0_r. auto.
    + replace i with (N.succ (N.pred i)) by lia. rewrite !N.testbit_succ_r. apply H1.
Qed.

Lemma half_of x : exists y (b : bool), x = 2 * y + N.b2n b.
Proof. exists (N.div2 x), (N.odd x). rewrite <- N.div2_odd. reflexivity. Qed.

(** If the bits of [m] are among those of [x + 1], then they or those of [m - 1] are among the bits of [x]. *)
Lemma within_succ m x : within m (x + 1) -> 1 <= m -> within m x \/ within (m - 1) x.
Proof.
  revert m. induction x as [x IH] using (well_founded_induction N.lt_wf_0). intros m H Hm.
  destruct (half_of x) as (y & d & Ex). destruct (half_of m) as (n & b & Em). subst m.
  destruct d; cbn [N.b2n] in Ex.
  - replace (x + 1) with (2 * (y + 1) + N.b2n false) in H by (cbn; lia). apply within_half in H. destruct H as (H1 & H2).
    destruct b; [specialize (H2 eq_refl); discriminate|]. cbn [N.b2n] in Hm |- *.
    destruct (IH y ltac:(lia) n H1 ltac:(lia)) as [X|X].
    + left. subst x. apply (within_half n y false true). auto.
    + right. subst x. replace (2 * n + 0 - 1) with (2 * (n - 1) + 1) by lia. apply (within_half (n - 1) y true true). auto.
  - replace (x + 1) with (2 * y + N.b2n true) in H by (cbn; lia). apply within_half in H. destruct H as (H1 & _).
    destruct b; cbn [N.b2n].
    + right. subst x. replace (2 * n + 1 - 1) with (2 * n + 0) by lia. apply (within_half n y false false). auto.
    + left. subst x. apply (within_half n y false false). auto.
Qed.

Lemma testbit_small x k i : x < 2 ^ k -> N.testbit x i = true -> i < k.
Proof.
  intros Hx Hi. destruct (N.lt_ge_cases i k) as [|L]; auto. exfalso.
  destruct (N.eq_dec x 0) as [->|Hn]; [rewrite N.bits_0 in Hi; discriminate|].
  rewrite N.bits_above_log2 in Hi; [discriminate|]. apply N.log2_lt_pow2; [lia|].
  eapply N.lt_le_trans; [exact Hx|]. apply N.pow_le_mono_r; lia.
Qed.

Lemma clear_bit m t : N.testbit m t = true -> N.clearbit m t < m /\ forall i, i <> t -> N.testbit (N.clearbit m t) i = N.testbit m i.
Proof.
  intros H. split.
  - assert (L : N.clearbit m t <= m).
    { apply within_le. intros i Hi. rewrite N.clearbit_eqb in Hi. apply andb_true_iff in Hi. apply Hi. }
    assert (E : N.clearbit m t <> m); [|lia]. intros E. apply (f_equal (fun z => N.testbit z t)) in E.
    rewrite N.clearbit_eq in E. congruence.
  - intros i Hi. apply N.clearbit_neq. auto.
Qed.

Lemma has_bit m : m <> 0 -> exists t, N.testbit m t = true.
Proof.
  intros H. exists (N.log2 m). apply N.bit_log2. exact H.
Qed.

(* --------------------------------------------------------------- arrangements *)

Section Order.
Variable width : nat.
Notation W := (N.of_nat width).

(** The last position first, then the bits of [m], then the signal, then the other bits. *)
Definition kind (m : N) (p : nat) : nat :=
  if (p <? width)%nat then (if N.testbit m (N.of_nat p) then 1 else 3)%nat
  else if (p =? width)%nat then 2%nat else if (p =? S width)%nat then 0%nat else 3%nat.

Definition of_kind {A} (m : N) (l : list (nat * A)) (k : nat) : list A :=
  map snd (filter (fun p => (kind m (fst p) =? k)%nat) l).

Definition arrange {A} (m : N) (l : list A) : list A :=
  let pl := combine (seq 0 (length l)) l in
  of_kind m pl 0 ++ of_kind m pl 1 ++ of_kind m pl 2 ++ of_kind m pl 3.

Lemma kind_range m p : (kind m p < 4)%nat.
Proof. unfold kind. repeat (destruct (_ : bool); try lia). Qed.

Lemma combine_snd {A} (l : list A) k : map snd (combine (seq k (length l)) l) = l.
Proof. revert k. induction l as [|x l IH]; intros k; cbn; auto. rewrite IH. reflexivity. Qed.

Lemma middle2 {A} (x : A) a b d : Permutation (x :: a ++ b ++ d) (a ++ b ++ x :: d).
Proof. rewrite !app_assoc. apply Permutation_middle. Qed.

Lemma arrange_perm {A} m (l : list A) : Permutation (arrange m l) l.
Proof.
  unfold arrange. cbv zeta. pose proof (combine_snd l 0) as E. revert E.
  generalize (combine (seq 0 (length l)) l). intros pl <-.
  unfold of_kind. rewrite <- !map_app. apply Permutation_map.
  induction pl as [|x pl IH]; [constructor|]. cbn [filter].
  pose proof (kind_range m (fst x)) as B. destruct (kind m (fst x)) as [|[|[|[|k]]]]; [..|lia]; cbn [Nat.eqb app].
  - apply perm_skip, IH.
  - symmetry. etransitivity; [apply perm_skip; symmetry; apply IH|]. apply Permutation_middle.
  - symmetry. etransitivity; [apply perm_skip; symmetry; apply IH|]. apply middle2.
  - symmetry. etransitivity; [apply perm_skip; symmetry; apply IH|]. rewrite !app_assoc. apply Permutation_middle.
Qed.

(** The literal "bit [i] is not set". *)
Definition off (i : N) : N := 2 * (i + 1) + 1.
Definition all_off : list N := map off (bits width) ++ [2 * (W + 1) + 1; 2 * (W + 2)].
Definition ones (m : N) : list N := map off (filter (N.testbit m) (bits width)).
Definition zeros (m : N) : list N := map off (filter (fun i => negb (N.testbit m i)) (bits width)).

Lemma all_off_length : length all_off = S (S width).
Proof. unfold all_off. rewrite app_length, map_length, bits_length. cbn [length]. lia. Qed.

Lemma combine_bits : combine (seq 0 (S (S width))) all_off =
  map (fun p => (p, off (N.of_nat p))) (seq 0 width) ++ [(width, 2 * (W + 1) + 1); (S width, 2 * (W + 2))].
Proof.
  unfold all_off, bits. rewrite map_map. replace (S (S width)) with (width + 2)%nat by lia. rewrite seq_app. cbn [seq Nat.add].
  assert (X : forall (f : nat -> N) l r1 r2, combine (l ++ r1) (map f l ++ r2) = map (fun p => (p, f p)) l ++ combine r1 r2).
  { intros f l r1 r2. induction l as [|x l IH]; cbn; auto. rewrite IH. reflexivity. }
  rewrite X. reflexivity.
Qed.

Lemma filter_map {A B} (f : A -> B) p l : filter p (map f l) = map f (filter (fun x => p (f x)) l).
Proof. induction l as [|x l IH]; cbn; auto. destruct (p (f x)); cbn; rewrite IH; reflexivity. Qed.

Lemma arrange_all m : arrange m all_off = 2 * (W + 2) :: ones m ++ (2 * (W + 1) + 1) :: zeros m.
Proof.
  unfold arrange. rewrite all_off_length, combine_bits.
  assert (K1 : kind m width = 2%nat) by (unfold kind; rewrite Nat.ltb_irrefl, Nat.eqb_refl; reflexivity).
  assert (K2 : kind m (S width) = 0%nat).
  { unfold kind. replace (S width <? width)%nat with false by (symmetry; apply Nat.ltb_ge; lia).
    replace (S width =? width)%nat with false by (symmetry; apply Nat.eqb_neq; lia). rewrite Nat.eqb_refl. reflexivity. }
  unfold of_kind. rewrite !filter_app. cbn [filter fst]. rewrite K1, K2. cbn [Nat.eqb].
  rewrite !map_app. cbn [map snd app]. rewrite !app_nil_r. rewrite !filter_map. cbn [fst].
  assert (F : forall (q : nat -> bool) l, incl l (seq 0 width) -> forall k,
    (forall p, (p < width)%nat -> (kind m p =? k)%nat = q p) ->
    map snd (map (fun p => (p, off (N.of_nat p))) (filter (fun p => (kind m p =? k)%nat) l)) =
    map (fun p => off (N.of_nat p)) (filter q l)).
  { intros q l Hl k Hk. rewrite map_map. cbn [snd]. f_equal. apply filter_ext_in. intros p Hp. apply Hk. apply Hl, in_seq in Hp. lia. }
  assert (K : forall p, (p < width)%nat -> kind m p = if N.testbit m (N.of_nat p) then 1%nat else 3%nat).
  { intros p Hp. unfold kind. replace (p <? width)%nat with true by (symmetry; apply Nat.ltb_lt; lia). reflexivity. }
  rewrite (F (fun _ => false) _ (incl_refl _) 0%nat) by (intros p Hp; rewrite K by exact Hp; destruct (N.testbit m (N.of_nat p)); reflexivity).
  rewrite (F (fun p => N.testbit m (N.of_nat p)) _ (incl_refl _) 1%nat) by (intros p Hp; rewrite K by exact Hp; destruct (N.testbit m (N.of_nat p)); reflexivity).
  rewrite (F (fun _ => false) _ (incl_refl _) 2%nat) by (intros p Hp; rewrite K by exact Hp; destruct (N.testbit m (N.of_nat p)); reflexivity).
  rewrite (F (fun p => negb (N.testbit m (N.of_nat p))) _ (incl_refl _) 3%nat) by (intros p Hp; rewrite K by exact Hp; destruct (N.testbit m (N.of_nat p)); reflexivity).
  assert (Z : forall l : list nat, filter (fun _ => false) l = []) by (induction l; cbn; auto).
  rewrite Z. cbn [map app]. unfold ones, zeros, bits. rewrite !filter_map, !map_map. reflexivity.
Qed.

Lemma in_ones m l : In l (ones m) <-> exists i, i < W /\ N.testbit m i = true /\ l = off i.
Proof.
  unfold ones. rewrite in_map_iff. split.
  - intros (i & <- & H). apply filter_In in H. destruct H as (H1 & H2). exists i. split; [apply bits_in; exact H1|]. auto.
  - intros (i & H1 & H2 & ->). exists i. split; auto. apply filter_In. split; auto.
    unfold bits. apply in_map_iff. exists (N.to_nat i). split; [lia|]. apply in_seq. lia.
Qed.

Lemma ones_nodup m : NoDup (ones m).
Proof.
  unfold ones. apply FinFun.Injective_map_NoDup; [intros x y E; unfold off in E; lia|]. apply NoDup_filter.
  unfold bits. apply FinFun.Injective_map_NoDup; [intros x y E; lia|]. apply seq_NoDup.
Qed.

End Order.

(* --------------------------------------------------------- when to arrange how *)

(** The number of permutations drawn before round [k + 1]. *)
Fixpoint drawn (k : nat) : nat :=
  match k with
  | O => O
  | S k0 => drawn k0 + S k0 + (if Nat.even k0 then 4 else 0)
  end.

Lemma drawn_mono j k : (j < k)%nat -> (drawn j < drawn k)%nat.
Proof.
  induction k as [|k IH]; intros H; [lia|]. cbn [drawn]. destruct (Nat.eq_dec j k) as [->|]; [lia|].
  specialize (IH ltac:(lia)). lia.
Qed.

Lemma drawn_inj j k : drawn j = drawn k -> j = k.
Proof.
  intros E. destruct (Nat.lt_trichotomy j k) as [H|[H|H]]; auto; apply drawn_mono in H; lia.
Qed.

Lemma drawn_ge k : (k <= drawn k)%nat.
Proof. induction k; cbn [drawn]; lia. Qed.

Definition need (n : nat) : N :=
  match find (fun k => Nat.eqb (drawn k) n) (seq 0 (S n)) with
  | Some k => N.of_nat (k + 2)
  | None =>
      match find (fun k => Nat.eqb (drawn k + 2) n) (seq 0 (S n)) with
      | Some k => N.of_nat (k + 3)
      | None => 0
      end
  end.

Lemma find_unique f l (k : nat) : In k l -> f k = true -> (forall j, f j = true -> j = k) -> find f l = Some k.
Proof.
  intros Hk Hf Hu. destruct (find f l) as [j|] eqn:E.
  - apply find_some in E. rewrite (Hu j); auto. apply E.
  - rewrite (find_none _ _ E k Hk) in Hf. discriminate.
Qed.

Lemma find_nothing {A} f (l : list A) : (forall j, f j = false) -> find f l = None.
Proof. intros H. destruct (find f l) as [j|] eqn:E; auto. apply find_some in E. rewrite H in E. destruct E; discriminate. Qed.

Lemma need_first k : need (drawn k) = N.of_nat (k + 2).
Proof.
  unfold need. rewrite (find_unique _ _ k); auto.
  - apply in_seq. pose proof (drawn_ge k). lia.
  - apply Nat.eqb_refl.
  - intros j Hj. apply Nat.eqb_eq in Hj. apply drawn_inj; auto.
Qed.

Lemma need_second k : Nat.even k = true -> need (drawn k + 2) = N.of_nat (k + 3).
Proof.
  intros Hk. unfold need. rewrite find_nothing.
  - rewrite (find_unique _ _ k); auto.
    + apply in_seq. pose proof (drawn_ge k). lia.
    + apply Nat.eqb_refl.
    + intros j Hj. apply Nat.eqb_eq in Hj. apply drawn_inj. lia.
  - intros j. apply Nat.eqb_neq. intros E. destruct (Nat.le_gt_cases j k) as [L|L].
    + destruct (Nat.eq_dec j k) as [->|]; [lia|]. pose proof (drawn_mono j k ltac:(lia)). lia.
    + assert (X : (drawn (S k) <= drawn j)%nat).
      { destruct (Nat.eq_dec (S k) j) as [->|]; [lia|]. pose proof (drawn_mono (S k) j ltac:(lia)). lia. }
      cbn [drawn] in X. rewrite Hk in X. lia.
Qed.

Definition slow_random (width : nat) : Random := fun n A l => arrange width (need n) l.

Lemma slow_random_ok width : random_ok (slow_random width).
Proof. intros n A l. apply arrange_perm. Qed.
