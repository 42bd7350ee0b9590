(** The provers without their statistics; not part of the modelled code. *)
From Verif Require Import Base Formulas FormulaLogic Fsts Solvers Ic3 Pdr SpecAlg Tac.
Open Scope nat_scope.

Definition stateless_plain (b : build) (R : Random) (T : StatelessSolver) (fuel : nat) (s : FSTS)
  : res ProofResult :=
  C <- ic3_cache b s ;;
  '(r, _) <- ic3_prove b R (sl_ops b T s C) s fuel
             (mkIc3State (O := sl_ops b T s C) (mkSLState [] 0) 0) ;;
  Ok r.

Definition stateless_twice_plain (b : build) (R : Random) (T : StatelessSolver) (fuel : nat)
  (s : FSTS) : res (ProofResult * ProofResult) :=
  C <- ic3_cache b s ;;
  '(r1, st) <- ic3_prove b R (sl_ops b T s C) s fuel
             (mkIc3State (O := sl_ops b T s C) (mkSLState [] 0) 0) ;;
  '(r2, _) <- ic3_prove b R (sl_ops b T s C) s fuel st ;;
  Ok (r1, r2).

Definition stateful_plain (b : build) (R : Random) (SS : StatefulSolver) (fuel : nat) (s : FSTS)
  : res ProofResult :=
  C <- ic3_cache b s ;;
  x <- sf_new SS C ;;
  '(r, _) <- ic3_prove b R (sf_ops b SS s C) s fuel (mkIc3State (O := sf_ops b SS s C) x 0) ;;
  Ok r.

Definition stateful_twice_plain (b : build) (R : Random) (SS : StatefulSolver) (fuel : nat)
  (s : FSTS) : res (ProofResult * ProofResult) :=
  C <- ic3_cache b s ;;
  x <- sf_new SS C ;;
  '(r1, st) <- ic3_prove b R (sf_ops b SS s C) s fuel (mkIc3State (O := sf_ops b SS s C) x 0) ;;
  '(r2, _) <- ic3_prove b R (sf_ops b SS s C) s fuel st ;;
  Ok (r1, r2).

Definition pdr_plain (b : build) (R : Random) (SS : StatefulSolver) (fuel : nat) (s : FSTS)
  : res ProofResult :=
  '(r, _) <- pdr_prove b R SS s fuel (pdr_new SS) ;;
  Ok r.

Definition pdr_twice_plain (b : build) (R : Random) (SS : StatefulSolver) (fuel : nat) (s : FSTS)
  : res (ProofResult * ProofResult) :=
  '(r1, st) <- pdr_prove b R SS s fuel (pdr_new SS) ;;
  '(r2, _) <- pdr_prove b R SS s fuel st ;;
  Ok (r1, r2).

(** [real] is [run] with its counts checked, [plain] is [run] without counts. *)
Definition linked {A} (b : build) (plain : res A) (real : res A) : Prop :=
  match plain with
  | Ok r => real = Ok r \/ b = Debug /\ real = Panic
  | Panic => real = Panic
  | OutOfFuel => real = OutOfFuel
  end.

Lemma linked_ok {A} b (plain real : res A) r : linked b plain real -> real = Ok r -> plain = Ok r.
Proof. intros H ->. destruct plain; cbn in H; [destruct H as [H|[_ H]]|..]; congruence. Qed.
Lemma linked_fuel {A} b (plain real : res A) : linked b plain real -> real = OutOfFuel -> plain = OutOfFuel.
Proof. intros H ->. destruct plain; cbn in H; [destruct H as [H|[_ H]]|..]; congruence. Qed.
Lemma linked_panic {A} b (plain real : res A) : linked b plain real -> plain = Panic -> real = Panic.
Proof. intros H ->. exact H. Qed.
Lemma linked_release {A} (plain real : res A) : linked Release plain real -> real = plain.
Proof. intros H. destruct plain; cbn in H; [destruct H as [H|[H _]]|..]; congruence. Qed.
Lemma linked_back {A} b (plain real : res A) r : linked b plain real -> plain = Ok r -> real <> Panic -> real = Ok r.
Proof. intros H ->. cbn in H. destruct H as [H|[_ H]]; congruence. Qed.

Lemma fit_answer b n : sat_calls_fit b n = counted_answer b (N.of_nat n) tt.
Proof. destruct b; reflexivity. Qed.

Lemma stats_answer b x : stats_fit b x = counted_answer b (most_calls x) tt.
Proof.
  destruct x as [n1 n2 n3 n4 n5]. unfold stats_fit. rewrite !fit_answer. destruct b; [|reflexivity].
  unfold counted_answer, most_calls. cbn [calls_get_bad_cube calls_is_blocked calls_do_not_extract_model calls_no_ind calls_extract_model].
  repeat match goal with |- context[(?x <? ?y)%N] => destruct (N.ltb_spec x y); cbn [bind] end; auto; lia.
Qed.

Lemma counted_cases b n {A} (r : A) : counted_answer b n r = Ok r \/ b = Debug /\ counted_answer b n r = Panic.
Proof. destruct b; cbn; auto. destruct (n <? _)%N; auto. Qed.

Lemma counted_bind b n {A} (r : A) : bind (counted_answer b n tt) (fun _ => Ok r) = counted_answer b n r.
Proof. destruct b; cbn; auto. destruct (n <? _)%N; auto. Qed.

(** [run] gives the result of [plain] with a count, and [real] checks the count. *)
Lemma link_gen {A B} b (plain real : res A) (run : res (A * B)) (most : B -> N) :
  plain = bind run (fun x => Ok (fst x)) ->
  real = bind run (fun x => counted_answer b (most (snd x)) (fst x)) ->
  linked b plain real /\
  forall r, plain = Ok r -> exists n, run = Ok (r, n) /\ real = counted_answer b (most n) r.
Proof.
  intros -> ->. destruct run as [(r & n)| |]; cbn [bind linked fst snd]; (split; [auto using counted_cases|]).
  - intros r' [= ->]. eauto.
  - discriminate.
  - discriminate.
Qed.

Lemma stateless_link b R T fuel s :
  linked b (stateless_plain b R T fuel s) (ic3_stateless b R T fuel s) /\
  forall r, stateless_plain b R T fuel s = Ok r -> exists n, ic3_stateless_run b R T fuel s = Ok (r, n) /\
    ic3_stateless b R T fuel s = counted_answer b (N.of_nat n) r.
Proof.
  apply (link_gen b _ _ _ N.of_nat); unfold ic3_stateless, ic3_stateless_run, stateless_plain.
  - destruct (ic3_cache b s); cbn [bind]; auto. destruct (ic3_prove _ _ _ _ _ _) as [(? & ?)| |]; reflexivity.
  - destruct (ic3_cache b s); cbn [bind]; auto. destruct (ic3_prove _ _ _ _ _ _) as [(? & ?)| |]; cbn [bind fst snd]; auto.
    rewrite fit_answer, counted_bind. reflexivity.
Qed.

Lemma stateful_link b R SS fuel s :
  linked b (stateful_plain b R SS fuel s) (ic3_stateful b R SS fuel s) /\
  forall r, stateful_plain b R SS fuel s = Ok r -> exists n, ic3_stateful_run b R SS fuel s = Ok (r, n) /\
    ic3_stateful b R SS fuel s = counted_answer b (N.of_nat n) r.
Proof.
  apply (link_gen b _ _ _ N.of_nat); unfold ic3_stateful, ic3_stateful_run, stateful_plain.
  - destruct (ic3_cache b s); cbn [bind]; auto. destruct (sf_new _ _); cbn [bind]; auto.
    destruct (ic3_prove _ _ _ _ _ _) as [(? & ?)| |]; reflexivity.
  - destruct (ic3_cache b s); cbn [bind]; auto. destruct (sf_new _ _); cbn [bind]; auto.
    destruct (ic3_prove _ _ _ _ _ _) as [(? & ?)| |]; cbn [bind fst snd]; auto.
    rewrite fit_answer, counted_bind. reflexivity.
Qed.

Lemma pdr_link b R SS fuel s :
  linked b (pdr_plain b R SS fuel s) (pdr b R SS fuel s) /\
  forall r, pdr_plain b R SS fuel s = Ok r -> exists n, pdr_run b R SS fuel s = Ok (r, n) /\
    pdr b R SS fuel s = counted_answer b (most_calls n) r.
Proof.
  apply (link_gen b _ _ _ most_calls); unfold pdr, pdr_run, pdr_plain.
  - destruct (pdr_prove _ _ _ _ _ _) as [(? & ?)| |]; reflexivity.
  - destruct (pdr_prove _ _ _ _ _ _) as [(? & ?)| |]; cbn [bind fst snd]; auto.
    rewrite stats_answer, counted_bind. reflexivity.
Qed.

Lemma stateless_twice_link b R T fuel s :
  linked b (stateless_twice_plain b R T fuel s) (ic3_stateless_twice b R T fuel s) /\
  forall r, stateless_twice_plain b R T fuel s = Ok r -> exists n, ic3_stateless_twice_run b R T fuel s = Ok (r, n) /\
    ic3_stateless_twice b R T fuel s = counted_answer b (N.of_nat n) r.
Proof.
  apply (link_gen b _ _ _ N.of_nat); unfold ic3_stateless_twice, ic3_stateless_twice_run, stateless_twice_plain.
  - destruct (ic3_cache b s); cbn [bind]; auto. destruct (ic3_prove _ _ _ _ _ _) as [(? & ?)| |]; cbn [bind]; auto.
    destruct (ic3_prove _ _ _ _ _ _) as [(? & ?)| |]; reflexivity.
  - destruct (ic3_cache b s); cbn [bind]; auto. destruct (ic3_prove _ _ _ _ _ _) as [(? & ?)| |]; cbn [bind fst snd]; auto.
    destruct (ic3_prove _ _ _ _ _ _) as [(? & ?)| |]; cbn [bind fst snd]; auto.
    rewrite fit_answer, counted_bind. reflexivity.
Qed.

Lemma stateful_twice_link b R SS fuel s :
  linked b (stateful_twice_plain b R SS fuel s) (ic3_stateful_twice b R SS fuel s) /\
  forall r, stateful_twice_plain b R SS fuel s = Ok r -> exists n, ic3_stateful_twice_run b R SS fuel s = Ok (r, n) /\
    ic3_stateful_twice b R SS fuel s = counted_answer b (N.of_nat n) r.
Proof.
  apply (link_gen b _ _ _ N.of_nat); unfold ic3_stateful_twice, ic3_stateful_twice_run, stateful_twice_plain.
  - destruct (ic3_cache b s); cbn [bind]; auto. destruct (sf_new _ _); cbn [bind]; auto.
    destruct (ic3_prove _ _ _ _ _ _) as [(? & ?)| |]; cbn [bind]; auto.
    destruct (ic3_prove _ _ _ _ _ _) as [(? & ?)| |]; reflexivity.
  - destruct (ic3_cache b s); cbn [bind]; auto. destruct (sf_new _ _); cbn [bind]; auto.
    destruct (ic3_prove _ _ _ _ _ _) as [(? & ?)| |]; cbn [bind fst snd]; auto.
    destruct (ic3_prove _ _ _ _ _ _) as [(? & ?)| |]; cbn [bind fst snd]; auto.
    rewrite fit_answer, counted_bind. reflexivity.
Qed.

Lemma pdr_twice_link b R SS fuel s :
  linked b (pdr_twice_plain b R SS fuel s) (pdr_twice b R SS fuel s) /\
  forall r, pdr_twice_plain b R SS fuel s = Ok r -> exists n, pdr_twice_run b R SS fuel s = Ok (r, n) /\
    pdr_twice b R SS fuel s = counted_answer b (most_calls n) r.
Proof.
  apply (link_gen b _ _ _ most_calls); unfold pdr_twice, pdr_twice_run, pdr_twice_plain.
  - destruct (pdr_prove _ _ _ _ _ _) as [(? & ?)| |]; cbn [bind]; auto.
    destruct (pdr_prove _ _ _ _ _ _) as [(? & ?)| |]; reflexivity.
  - destruct (pdr_prove _ _ _ _ _ _) as [(? & ?)| |]; cbn [bind fst snd]; auto.
    destruct (pdr_prove _ _ _ _ _ _) as [(? & ?)| |]; cbn [bind fst snd]; auto.
    rewrite stats_answer, counted_bind. reflexivity.
Qed.

Lemma stateless_plain_ok b R T fuel s r : ic3_stateless b R T fuel s = Ok r -> stateless_plain b R T fuel s = Ok r.
Proof. eapply linked_ok, stateless_link. Qed.
Lemma stateful_plain_ok b R SS fuel s r : ic3_stateful b R SS fuel s = Ok r -> stateful_plain b R SS fuel s = Ok r.
Proof. eapply linked_ok, stateful_link. Qed.
Lemma pdr_plain_ok b R SS fuel s r : pdr b R SS fuel s = Ok r -> pdr_plain b R SS fuel s = Ok r.
Proof. eapply linked_ok, pdr_link. Qed.
Lemma stateless_plain_fuel b R T fuel s : ic3_stateless b R T fuel s = OutOfFuel -> stateless_plain b R T fuel s = OutOfFuel.
Proof. eapply linked_fuel, stateless_link. Qed.
Lemma stateful_plain_fuel b R SS fuel s : ic3_stateful b R SS fuel s = OutOfFuel -> stateful_plain b R SS fuel s = OutOfFuel.
Proof. eapply linked_fuel, stateful_link. Qed.
Lemma pdr_plain_fuel b R SS fuel s : pdr b R SS fuel s = OutOfFuel -> pdr_plain b R SS fuel s = OutOfFuel.
Proof. eapply linked_fuel, pdr_link. Qed.
