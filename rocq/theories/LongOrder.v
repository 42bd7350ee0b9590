(** The random choices that make PDR slow on the circuits of LongGen.v. *)
From Coq Require Import Permutation Sorted.
From Verif Require Import Base Formulas FormulaLogic Aig Fsts Solvers Ic3 Spec SpecAig SpecFsts Tac
  FormulasFacts LogicFacts AigFacts SimFacts AigThms FstsFacts FstsSem TagFacts FstsThms BmcThms StateFacts Ic3Core
  CounterGen SlowGen SlowOrder.
Open Scope N_scope.

Section Order.
Variable width : nat.
Notation W := (N.of_nat width).

(** The last bit first, then the bits of [m], then the signal, then the other bits. *)
Definition long_kind (m : N) (p : nat) : nat :=
  if (p <? width)%nat then (if N.testbit m (N.of_nat p) then 1 else 3)%nat
  else if (p =? width)%nat then 0%nat else if (p =? S width)%nat then 2%nat else 3%nat.

Definition long_of_kind {A} (m : N) (l : list (nat * A)) (k : nat) : list A :=
  map snd (filter (fun p => (long_kind m (fst p) =? k)%nat) l).

Definition long_arrange {A} (m : N) (l : list A) : list A :=
  let pl := combine (seq 0 (length l)) l in
  long_of_kind m pl 0 ++ long_of_kind m pl 1 ++ long_of_kind m pl 2 ++ long_of_kind m pl 3.

Lemma long_kind_range m p : (long_kind m p < 4)%nat.
Proof. unfold long_kind. repeat (destruct (_ : bool); try lia). Qed.

Lemma long_arrange_perm {A} m (l : list A) : Permutation (long_arrange m l) l.
Proof.
  unfold long_arrange. cbv zeta. pose proof (combine_snd l 0) as E. revert E.
  generalize (combine (seq 0 (length l)) l). intros pl <-.
  unfold long_of_kind. rewrite <- !map_app. apply Permutation_map.
  induction pl as [|x pl IH]; [constructor|]. cbn [filter].
  pose proof (long_kind_range m (fst x)) as B. destruct (long_kind m (fst x)) as [|[|[|[|k]]]]; [..|lia]; cbn [Nat.eqb app].
  - apply perm_skip, IH.
  - symmetry. etransitivity; [apply perm_skip; symmetry; apply IH|]. apply Permutation_middle.
  - symmetry. etransitivity; [apply perm_skip; symmetry; apply IH|]. apply middle2.
  - symmetry. etransitivity; [apply perm_skip; symmetry; apply IH|]. rewrite !app_assoc. apply Permutation_middle.
Qed.

(** The literal "bit [i] is set". *)
Definition on (i : N) : N := 2 * (i + 1).
Definition all_on : list N := map on (bits width) ++ [on W; on (W + 1)].
Definition long_ones (m : N) : list N := map on (filter (N.testbit m) (bits width)).
Definition long_zeros (m : N) : list N := map on (filter (fun i => negb (N.testbit m i)) (bits width)).

Lemma all_on_length : length all_on = S (S width).
Proof. unfold all_on. rewrite app_length, map_length, bits_length. cbn [length]. lia. Qed.

Lemma long_combine_bits : combine (seq 0 (S (S width))) all_on =
  map (fun p => (p, on (N.of_nat p))) (seq 0 width) ++ [(width, on W); (S width, on (W + 1))].
Proof.
  unfold all_on, bits. rewrite map_map. replace (S (S width)) with (width + 2)%nat by lia. rewrite seq_app. cbn [seq Nat.add].
  assert (X : forall (f : nat -> N) l r1 r2, combine (l ++ r1) (map f l ++ r2) = map (fun p => (p, f p)) l ++ combine r1 r2).
  { intros f l r1 r2. induction l as [|x l IH]; cbn; auto. rewrite IH. reflexivity. }
  rewrite X. reflexivity.
Qed.

Lemma long_arrange_all m : long_arrange m all_on = on W :: long_ones m ++ on (W + 1) :: long_zeros m.
Proof.
  unfold long_arrange. rewrite all_on_length, long_combine_bits.
  assert (K1 : long_kind m width = 0%nat) by (unfold long_kind; rewrite Nat.ltb_irrefl, Nat.eqb_refl; reflexivity).
  assert (K2 : long_kind m (S width) = 2%nat).
  { unfold long_kind. replace (S width <? width)%nat with false by (symmetry; apply Nat.ltb_ge; lia).
    replace (S width =? width)%nat with false by (symmetry; apply Nat.eqb_neq; lia). rewrite Nat.eqb_refl. reflexivity. }
  unfold long_of_kind. rewrite !filter_app. cbn [filter fst]. rewrite K1, K2. cbn [Nat.eqb].
  rewrite !map_app. cbn [map snd app]. rewrite !app_nil_r. rewrite !filter_map. cbn [fst].
  assert (F : forall (q : nat -> bool) l, incl l (seq 0 width) -> forall k,
    (forall p, (p < width)%nat -> (long_kind m p =? k)%nat = q p) ->
    map snd (map (fun p => (p, on (N.of_nat p))) (filter (fun p => (long_kind m p =? k)%nat) l)) =
    map (fun p => on (N.of_nat p)) (filter q l)).
  { intros q l Hl k Hk. rewrite map_map. cbn [snd]. f_equal. apply filter_ext_in. intros p Hp. apply Hk. apply Hl, in_seq in Hp. lia. }
  assert (K : forall p, (p < width)%nat -> long_kind m p = if N.testbit m (N.of_nat p) then 1%nat else 3%nat).
  { intros p Hp. unfold long_kind. replace (p <? width)%nat with true by (symmetry; apply Nat.ltb_lt; lia). reflexivity. }
  rewrite (F (fun _ => false) _ (incl_refl _) 0%nat) by (intros p Hp; rewrite K by exact Hp; destruct (N.testbit m (N.of_nat p)); reflexivity).
  rewrite (F (fun p => N.testbit m (N.of_nat p)) _ (incl_refl _) 1%nat) by (intros p Hp; rewrite K by exact Hp; destruct (N.testbit m (N.of_nat p)); reflexivity).
  rewrite (F (fun _ => false) _ (incl_refl _) 2%nat) by (intros p Hp; rewrite K by exact Hp; destruct (N.testbit m (N.of_nat p)); reflexivity).
  rewrite (F (fun p => negb (N.testbit m (N.of_nat p))) _ (incl_refl _) 3%nat) by (intros p Hp; rewrite K by exact Hp; destruct (N.testbit m (N.of_nat p)); reflexivity).
  assert (Z : forall l : list nat, filter (fun _ => false) l = []) by (induction l; cbn; auto).
  rewrite Z. cbn [map app]. unfold long_ones, long_zeros, bits. rewrite !filter_map, !map_map. reflexivity.
Qed.

Lemma long_in_ones m l : In l (long_ones m) <-> exists i, i < W /\ N.testbit m i = true /\ l = on i.
Proof.
  unfold long_ones. rewrite in_map_iff. split.
  - intros (i & <- & H). apply filter_In in H. destruct H as (H1 & H2). exists i. split; [apply bits_in; exact H1|]. auto.
  - intros (i & H1 & H2 & ->). exists i. split; auto. apply filter_In. split; auto.
    unfold bits. apply in_map_iff. exists (N.to_nat i). split; [lia|]. apply in_seq. lia.
Qed.

Lemma long_ones_nodup m : NoDup (long_ones m).
Proof.
  unfold long_ones. apply FinFun.Injective_map_NoDup; [intros x y E; unfold on in E; lia|]. apply NoDup_filter.
  unfold bits. apply FinFun.Injective_map_NoDup; [intros x y E; lia|]. apply seq_NoDup.
Qed.

End Order.


(** The numbers whose bits are kept, by draw: every depth draws twice. *)
Definition long_need (n : nat) : N := N.of_nat (Nat.div2 n + 2).

Lemma long_need_odd k : long_need (S (2 * k)) = N.of_nat (k + 2).
Proof. unfold long_need. rewrite Nat.div2_succ_double. reflexivity. Qed.

Definition long_random (width : nat) : Random := fun n A l => long_arrange width (long_need n) l.

Lemma long_random_ok width : random_ok (long_random width).
Proof. intros n A l. apply long_arrange_perm. Qed.
