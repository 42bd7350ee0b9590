(** Proof automation shared by the lemma files. *)
From Coq Require Export ZifyBool ZifyNat ZifyN.
From Verif Require Import Base.
Ltac Zify.zify_post_hook ::= Z.div_mod_to_equations.

Global Arguments N.add : simpl never.
Global Arguments N.sub : simpl never.
Global Arguments N.mul : simpl never.
Global Arguments N.div : simpl never.
Global Arguments N.modulo : simpl never.
Global Arguments N.shiftl : simpl never.
Global Arguments N.shiftr : simpl never.
Global Arguments N.lxor : simpl never.
Global Arguments N.leb : simpl never.
Global Arguments N.ltb : simpl never.
Global Arguments N.eqb : simpl never.
Global Arguments N.odd : simpl never.
Global Arguments N.max : simpl never.
Global Arguments N.of_nat : simpl never.
Global Arguments N.to_nat : simpl never.
Global Arguments Z.add : simpl never.
Global Arguments Z.sub : simpl never.
Global Arguments Z.mul : simpl never.
Global Arguments Z.max : simpl never.

(** Split a monadic equation [x <- e ;; k = Ok r]. *)
Lemma bind_ok {A B} (m : res A) (k : A -> res B) r :
  bind m k = Ok r -> exists a, m = Ok a /\ k a = Ok r.
Proof. destruct m; simpl; intros H; try discriminate; eauto. Qed.

Lemma assert_ok c : assert_ c = Ok tt -> c = true.
Proof. destruct c; simpl; congruence. Qed.

Lemma assert_ok_u c u : assert_ c = Ok u -> c = true.
Proof. destruct c; simpl; congruence. Qed.

Lemma debug_assert_true b c : c = true -> debug_assert b c = Ok tt.
Proof. intros ->; destruct b; reflexivity. Qed.

Ltac inv H := inversion H; subst; clear H.

(** Decompose hypotheses of the form [(x <- e ;; k) = Ok r]. *)
Ltac binds :=
  repeat match goal with
  | H : bind _ _ = Ok _ |- _ =>
      let a := fresh "a" in let E := fresh "E" in
      apply bind_ok in H; destruct H as (a & E & H)
  | H : assert_ _ = Ok _ |- _ => apply assert_ok_u in H
  | H : Ok _ = Ok _ |- _ => inv H
  end.

Lemma mapM_ok {A B} (f : A -> res B) l r :
  mapM f l = Ok r <-> Forall2 (fun x y => f x = Ok y) l r.
Proof.
  revert r; induction l as [|x l IH]; simpl; intros r; split; intros H.
  - inv H; constructor.
  - inv H; reflexivity.
  - binds. constructor; auto. apply IH; auto.
  - inv H. rewrite H2; simpl. apply IH in H4. rewrite H4. reflexivity.
Qed.

Lemma mapM_total {A B} (f : A -> res B) (g : A -> B) l :
  (forall x, In x l -> f x = Ok (g x)) -> mapM f l = Ok (map g l).
Proof.
  induction l as [|x l IH]; simpl; intros H; auto.
  rewrite (H x) by auto; simpl. rewrite IH by auto. reflexivity.
Qed.

Lemma foldM_inv {A S} (f : S -> A -> res S) (P : list A -> S -> Prop) l s r :
  P [] s ->
  (forall pre x s s', (exists suf, l = pre ++ x :: suf) -> P pre s -> f s x = Ok s' ->
     P (pre ++ [x]) s') ->
  foldM f l s = Ok r -> P l r.
Proof.
  intros H0 Hstep.
  assert (G : forall suf pre s, l = pre ++ suf -> P pre s -> foldM f suf s = Ok r -> P l r).
  { induction suf as [|x suf IH]; simpl; intros pre s1 El HP HF.
    - inv HF. rewrite app_nil_r; auto.
    - binds. eapply (IH (pre ++ [x])); eauto. rewrite <- app_assoc; auto. }
  intros HF. eapply (G l []); eauto.
Qed.

Lemma foldM_app {A S} (f : S -> A -> res S) l1 l2 s :
  foldM f (l1 ++ l2) s = bind (foldM f l1 s) (fun s' => foldM f l2 s').
Proof.
  revert s; induction l1 as [|x l1 IH]; simpl; intros s; auto.
  destruct (f s x); simpl; auto.
Qed.

Lemma index_ok {A} (l : list A) i x : index l i = Ok x <-> nth_error l (N.to_nat i) = Some x.
Proof. unfold index, unwrap. destruct (nth_error l (N.to_nat i)); split; congruence. Qed.

Lemma indexn_ok {A} (l : list A) i x : indexn l i = Ok x <-> nth_error l i = Some x.
Proof. unfold indexn, unwrap. destruct (nth_error l i); split; congruence. Qed.

Lemma indexn_lt {A} (l : list A) i : (i < length l)%nat -> exists x, indexn l i = Ok x.
Proof.
  intros H. unfold indexn, unwrap. destruct (nth_error l i) eqn:E; eauto.
  apply nth_error_None in E. lia.
Qed.
