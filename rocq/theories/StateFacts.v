(** Lemmas about states as cubes, counting states, and reaching bad states; shared by the
    proofs about IC3 and PDR. *)
From Coq Require Import Permutation.
From Verif Require Import Base Formulas FormulaLogic Aig Fsts Spec SpecAig SpecFsts Tac
  FormulasFacts LogicFacts AigFacts SimFacts AigThms FstsFacts FstsSem TagFacts FstsThms BmcThms.
Open Scope N_scope.

(** The cube naming the latches with the values of [w]. *)
Definition state_of (c : circuit) (w : valuation) : Cube :=
  cube_new (map (fun v => if w v then 2 * v else 2 * v + 1)
             (numbers (c_inputs c + 1) (lenN (c_latches c)))).

Lemma in_state_of c w l : In l (cube_lits (state_of c w)) <->
  exists v, is_latch c v /\ l = (if w v then 2 * v else 2 * v + 1).
Proof.
  unfold state_of. rewrite in_cube_new, in_map_iff. split.
  - intros (v & <- & Hv). exists v. rewrite <- in_states. auto.
  - intros (v & Hv & ->). exists v. rewrite in_states. auto.
Qed.

Lemma state_of_api c w : api_cube (state_of c w).
Proof. apply cube_new_api. Qed.

Lemma state_of_state c w : state_cube c w (state_of c w).
Proof. apply latch_cube_state. auto. Qed.

Lemma state_of_vars c w : cube_vars (is_latch c) (state_of c w).
Proof.
  intros l Hl. apply in_state_of in Hl. destruct Hl as (v & Hv & ->).
  replace (lit_var _) with v; auto. unfold lit_var. destruct (w v); lia.
Qed.

Lemma state_of_true c w w' : cube_true w' (state_of c w) <-> same_latches c w' w.
Proof.
  split.
  - intros H v Hv. specialize (H (if w v then 2 * v else 2 * v + 1)).
    assert (T : lit_true w' (if w v then 2 * v else 2 * v + 1)) by (apply H, in_state_of; eauto).
    rewrite lit_true_value in T. destruct (w v).
    + rewrite lit_value_even in T. auto.
    + rewrite lit_value_odd in T. destruct (w' v); auto; discriminate.
  - intros H l Hl. apply in_state_of in Hl. destruct Hl as (v & Hv & ->).
    rewrite lit_true_value. specialize (H v Hv). rewrite <- H. destruct (w' v) eqn:E.
    + rewrite lit_value_even. auto.
    + rewrite lit_value_odd, E. auto.
Qed.

Lemma state_of_same c w w' : same_latches c w w' -> state_of c w = state_of c w'.
Proof.
  intros H. unfold state_of. f_equal. apply map_ext_in. intros v Hv. apply in_states in Hv.
  rewrite (H v Hv). reflexivity.
Qed.

Lemma same_latches_refl c w : same_latches c w w. Proof. intros v _. auto. Qed.
Lemma same_latches_sym c w w' : same_latches c w w' -> same_latches c w' w.
Proof. intros H v Hv. symmetry; auto. Qed.
Lemma same_latches_trans c w w' w'' : same_latches c w w' -> same_latches c w' w'' -> same_latches c w w''.
Proof. intros H H' v Hv. rewrite (H v Hv). auto. Qed.

Lemma same_latches_dec c w w' : {same_latches c w w'} + {~ same_latches c w w'}.
Proof.
  destruct (cube_true_dec w (state_of c w')) as [H|H]; rewrite state_of_true in H; auto.
Qed.

Lemma state_of_inj c w w' : state_of c w = state_of c w' -> same_latches c w w'.
Proof. intros E. apply state_of_true. rewrite <- E. apply state_of_true, same_latches_refl. Qed.

Lemma initial_same c w w' : same_latches c w w' -> initial_values c w -> initial_values c w'.
Proof.
  intros H Hi v nx r L. rewrite <- (H v) by (exists nx, r; auto). apply (Hi _ _ _ L).
Qed.

Lemma latch_cnf_same c w w' f : cnf_vars (is_latch c) f -> same_latches c w w' ->
  cnf_true w f -> cnf_true w' f.
Proof. intros Hv H. apply (cnf_true_ext _ w w' f Hv). auto. Qed.

Lemma latch_clause_same c w w' d : clause_vars (is_latch c) d -> same_latches c w w' ->
  clause_true w d -> clause_true w' d.
Proof. intros Hv H. apply clause_true_ext. intros l Hl. symmetry. auto. Qed.

Lemma latch_cube_same c w w' q : cube_vars (is_latch c) q -> same_latches c w w' ->
  cube_true w q -> cube_true w' q.
Proof. intros Hv H. apply cube_true_ext. intros l Hl. symmetry. auto. Qed.

Lemma initial_dec c w : {initial_values c w} + {~ initial_values c w}.
Proof.
  set (chk := fun j => match nth_error (c_latches c) j with
      | Some (_, r) => (negb (r =? 0) || negb (w (latch_var c j))) && (negb (r =? 1) || w (latch_var c j))
      | None => true end).
  destruct (forallb chk (seq 0 (length (c_latches c)))) eqn:E.
  - left. intros v nx r (j & Hj & ->). rewrite forallb_forall in E.
    assert (Hin : In j (seq 0 (length (c_latches c)))).
    { apply in_seq. split; [lia|]. apply nth_error_Some. congruence. }
    specialize (E j Hin). unfold chk in E. rewrite Hj in E.
    split; intros ->; simpl in E; destruct (w (latch_var c j)); auto; discriminate.
  - right. intros Hi. assert (X : forallb chk (seq 0 (length (c_latches c))) = true); [|congruence].
    apply forallb_forall. intros j _. unfold chk. destruct (nth_error (c_latches c) j) as [(nx, r)|] eqn:Ej; auto.
    destruct (Hi (latch_var c j) nx r) as (H0 & H1); [exists j; auto|].
    destruct (r =? 0) eqn:E0; destruct (r =? 1) eqn:E1; simpl; auto; try lia.
    + rewrite H0 by lia. auto.
    + rewrite H1 by lia. auto.
Qed.

(* ------------------------------------------------------------------- extraction *)

Lemma extract_state b c flag s asg w : numbered c flag -> encodes c flag s ->
  (forall v, is_latch c v -> get_value asg v = Some (w v)) ->
  extract_state_from_assignment b s asg = Ok (state_of c w).
Proof.
  intros Hn He H. rewrite extract_ok.
  - f_equal. unfold state_of. rewrite (e_states _ _ _ He). f_equal. apply map_ext_in. intros v Hv.
    apply in_states in Hv. rewrite (complete_agrees asg v _ (H v Hv)). reflexivity.
  - eapply states_range; eauto.
  - intros v Hv. rewrite (e_states _ _ _ He), in_states in Hv. rewrite (H v Hv). discriminate.
Qed.

(* ---------------------------------------------------------------- leading to bad *)

(** Some path from a state with these latch values reaches a bad clock. *)
Definition leads (c : circuit) (flag : bool) (w : valuation) : Prop :=
  exists p d, path c p d /\ same_latches c (p 0%nat) w /\ is_bad c flag (p d).

Lemma leads_same c flag w w' : same_latches c w w' -> leads c flag w -> leads c flag w'.
Proof.
  intros H (p & d & Hp & Hs & Hb). exists p, d. split; auto. split; auto.
  eapply same_latches_trans; eauto.
Qed.

Lemma leads_bad c flag w : wires_ok c w -> is_bad c flag w -> leads c flag w.
Proof.
  intros Hw Hb. exists (fun _ => w), 0%nat. split; [|split; auto].
  - split; [auto|]. intros t Ht. lia.
  - apply same_latches_refl.
Qed.

Lemma leads_step c flag w w' : wires_ok c w -> step_values c w w' -> leads c flag w' -> leads c flag w.
Proof.
  intros Hw Hst (p & d & (Hp1 & Hp2) & Hs & Hb).
  exists (fun t => match t with O => w | S t => p t end), (S d). split; [split|split]; auto.
  - intros [|t] Ht; auto. apply Hp1. lia.
  - intros [|t] Ht.
    + intros v nx r L. rewrite (Hs v) by (exists nx, r; auto). apply (Hst _ _ _ L).
    + apply Hp2. lia.
  - apply same_latches_refl.
Qed.

Lemma leads_run c flag w : circuit_wf c -> initial_values c w -> leads c flag w ->
  exists r t, run c r /\ is_bad c flag (r t).
Proof.
  intros Hwf Hi (p & d & Hp & Hs & Hb).
  destruct (extend_path c p d Hwf Hp) as (r & Hr & Hx).
  - eapply initial_same; [|eauto]. apply same_latches_sym; auto.
  - exists r, d. split; auto. rewrite Hx; auto.
Qed.

(* ------------------------------------------------------------------ counting states *)

(** All valuations of some variables (false elsewhere). *)
Fixpoint vals (vs : list N) : list valuation :=
  match vs with
  | [] => [fun _ => false]
  | v :: vs => flat_map (fun w => [w; fun x => if x =? v then true else w x]) (vals vs)
  end.

Lemma vals_length vs : length (vals vs) = Nat.pow 2 (length vs).
Proof.
  induction vs as [|v vs IH]; auto. cbn [vals length Nat.pow]. rewrite <- IH.
  generalize (vals vs) as L. induction L as [|w L IHL]; auto. cbn [flat_map app length]. lia.
Qed.

Lemma vals_all vs (w : valuation) : NoDup vs -> exists w0, In w0 (vals vs) /\
  (forall v, In v vs -> w0 v = w v) /\ (forall v, ~ In v vs -> w0 v = false).
Proof.
  induction vs as [|v vs IH]; intros Hn.
  - exists (fun _ => false). simpl. repeat split; auto. intros v [].
  - inversion Hn as [|x y Hv Hn']; subst. destruct (IH Hn') as (w0 & Hin & H1 & H2).
    destruct (w v) eqn:E.
    + exists (fun x => if x =? v then true else w0 x). split; [|split].
      * cbn [vals]. apply in_flat_map. exists w0. simpl; auto.
      * intros u Hu. destruct (u =? v) eqn:Eu; [replace u with v by lia; auto|].
        destruct Hu as [<-|Hu]; [lia|auto].
      * intros u Hu. destruct (u =? v) eqn:Eu; [elim Hu; simpl; left; lia|]. apply H2. simpl in Hu; tauto.
    + exists w0. split; [|split].
      * cbn [vals]. apply in_flat_map. exists w0. simpl; auto.
      * intros u [<-|Hu]; auto. rewrite H2; auto.
      * intros u Hu. apply H2. simpl in Hu; tauto.
Qed.

Definition all_vals (c : circuit) : list valuation := vals (numbers (c_inputs c + 1) (lenN (c_latches c))).
(** The number of states. *)
Definition states (c : circuit) : nat := Nat.pow 2 (length (c_latches c)).

Lemma numbers_length a n : length (numbers a n) = N.to_nat n.
Proof. unfold numbers. rewrite map_length, seq_length. reflexivity. Qed.

Lemma all_vals_length c : length (all_vals c) = states c.
Proof.
  unfold all_vals, states. rewrite vals_length, numbers_length. unfold lenN. rewrite Nat2N.id. reflexivity.
Qed.

Lemma all_vals_in c w : exists w0, In w0 (all_vals c) /\ same_latches c w0 w.
Proof.
  destruct (vals_all (numbers (c_inputs c + 1) (lenN (c_latches c))) w (numbers_nodup _ _)) as (w0 & H1 & H2 & _).
  exists w0. split; auto. intros v Hv. apply H2, in_states; auto.
Qed.

Lemma states_pos c : (1 <= states c)%nat.
Proof. unfold states. pose proof (Nat.pow_nonzero 2 (length (c_latches c))). lia. Qed.

Lemma states_small c : lenN (c_latches c) < 32 -> (N.of_nat (states c) <= 2147483648)%N.
Proof.
  intros H. unfold states, lenN in *. rewrite Nat2N.inj_pow.
  change 2147483648 with (N.of_nat 2 ^ 31). apply N.pow_le_mono_r; [discriminate|lia].
Qed.

(** How many states satisfy a formula over the latches. *)
Definition count (c : circuit) (f : CNF) : nat :=
  length (filter (fun w => if clauses_true_dec w (cnf_clauses f) then true else false) (all_vals c)).

Lemma filter_length_le {A} (p q : A -> bool) l : (forall x, In x l -> p x = true -> q x = true) ->
  (length (filter p l) <= length (filter q l))%nat.
Proof.
  induction l as [|x l IH]; simpl; intros H; auto.
  assert (IH' : (length (filter p l) <= length (filter q l))%nat) by (apply IH; auto).
  specialize (H x (or_introl eq_refl)). destruct (p x); [rewrite H; auto; simpl; lia|].
  destruct (q x); simpl; lia.
Qed.

Lemma filter_length_lt {A} (p q : A -> bool) l y : (forall x, In x l -> p x = true -> q x = true) ->
  In y l -> p y = false -> q y = true -> (length (filter p l) < length (filter q l))%nat.
Proof.
  induction l as [|x l IH]; simpl; intros H Hy Hp Hq; [tauto|].
  assert (IH' : (length (filter p l) <= length (filter q l))%nat) by (apply filter_length_le; auto).
  destruct Hy as [->|Hy].
  - rewrite Hp, Hq. simpl. lia.
  - specialize (IH (fun x Hx => H x (or_intror Hx)) Hy Hp Hq).
    pose proof (H x (or_introl eq_refl)) as Hx. destruct (p x); [rewrite Hx by auto; simpl; lia|].
    destruct (q x); simpl; lia.
Qed.

Lemma count_le c f : (count c f <= states c)%nat.
Proof.
  unfold count. rewrite <- all_vals_length. generalize (all_vals c) as L. intros L.
  induction L as [|x L IH]; auto. cbn [filter]. destruct (clauses_true_dec x (cnf_clauses f)); cbn [length]; lia.
Qed.

Lemma count_mono c f g : (forall w, cnf_true w f -> cnf_true w g) -> (count c f <= count c g)%nat.
Proof.
  intros H. apply filter_length_le. intros w _.
  destruct (clauses_true_dec w (cnf_clauses f)) as [Hf|]; [|discriminate]. intros _.
  destruct (clauses_true_dec w (cnf_clauses g)) as [|Hg]; auto. elim Hg. apply H; auto.
Qed.

Lemma count_lt c f g w : cnf_vars (is_latch c) f -> cnf_vars (is_latch c) g ->
  (forall w, cnf_true w f -> cnf_true w g) -> cnf_true w g -> ~ cnf_true w f -> (count c f < count c g)%nat.
Proof.
  intros Vf Vg H Hg Hf. destruct (all_vals_in c w) as (w0 & Hin & Hs).
  apply filter_length_lt with w0; auto.
  - intros x _. destruct (clauses_true_dec x (cnf_clauses f)) as [Hx|]; [|discriminate]. intros _.
    destruct (clauses_true_dec x (cnf_clauses g)) as [|Hx']; auto. elim Hx'. apply H; auto.
  - destruct (clauses_true_dec w0 (cnf_clauses f)) as [Hx|]; auto. elim Hf. eapply latch_cnf_same; eauto.
  - destruct (clauses_true_dec w0 (cnf_clauses g)) as [|Hx]; auto. elim Hx.
    eapply latch_cnf_same; [eauto| |apply Hg]. apply same_latches_sym; auto.
Qed.

(** Different state cubes are at most as many as states. *)
Lemma state_cubes_bound c (qs : list Cube) : NoDup qs ->
  (forall q, In q qs -> exists w, q = state_of c w) -> (length qs <= states c)%nat.
Proof.
  intros Hn H. rewrite <- all_vals_length, <- (map_length (state_of c) (all_vals c)).
  apply NoDup_incl_length; auto. intros q Hq. destruct (H q Hq) as (w & ->).
  destruct (all_vals_in c w) as (w0 & Hin & Hs). apply in_map_iff. exists w0. split; auto.
  apply state_of_same; auto.
Qed.
