(** More fuel does not change a result. *)
From Verif Require Import Base Formulas Fsts Solvers Ic3 Pdr Tac.
Open Scope nat_scope.

(** The second computation does what the first does, except that it may go on where that ran out of fuel. *)
Definition refines {A} (m m' : res A) : Prop := m = OutOfFuel \/ m' = m.

Lemma refines_refl {A} (m : res A) : refines m m. Proof. right. reflexivity. Qed.

Lemma refines_bind {A B} (m m' : res A) (f f' : A -> res B) :
  refines m m' -> (forall x, refines (f x) (f' x)) -> refines (bind m f) (bind m' f').
Proof.
  intros [-> | ->] H; [left; reflexivity|]. destruct m as [x| |]; cbn [bind]; [apply H|right; reflexivity..].
Qed.

Ltac same_step :=
  cbv zeta;
  match goal with
  | |- refines ?m ?m => apply refines_refl
  | |- refines (bind _ _) (bind _ _) => apply refines_bind; [|intros ?]
  | |- refines (let '(_, _) := ?p in _) _ => destruct p
  | |- refines (if ?q then _ else _) _ => destruct q
  | |- refines (match ?x with _ => _ end) _ => destruct x
  | H : forall _, _ |- _ => solve [apply H; lia]
  end.
Ltac same := repeat same_step.

Section Ic3Fuel.
Variable (b : build) (R : Random) (O : Ic3Ops) (s : FSTS).

Lemma push_fuel : forall fuel fuel' q k st, fuel <= fuel' ->
  refines (push_generalization b R O s fuel q k st) (push_generalization b R O s fuel' q k st).
Proof.
  induction fuel as [|fuel IH]; intros [|fuel'] q k st H; try (left; reflexivity); [lia|].
  cbn [push_generalization]. same.
Qed.

Lemma strengthen_fuel : forall fuel fuel' inner inner' k st, fuel <= fuel' -> inner <= inner' ->
  refines (strengthen b R O s inner fuel k st) (strengthen b R O s inner' fuel' k st).
Proof.
  pose proof push_fuel. induction fuel as [|fuel IH]; intros [|fuel'] inner inner' k st Hf Hi; try (left; reflexivity); [lia|].
  cbn [strengthen]. same.
Qed.

Lemma loop_fuel : forall outer outer' inner inner' k st, outer <= outer' -> inner <= inner' ->
  refines (prove_loop b R O s inner outer k st) (prove_loop b R O s inner' outer' k st).
Proof.
  pose proof strengthen_fuel. induction outer as [|outer IH]; intros [|outer'] inner inner' k st Hf Hi; try (left; reflexivity); [lia|].
  cbn [prove_loop]. same.
Qed.

Lemma prove_fuel fuel fuel' st : fuel <= fuel' ->
  refines (ic3_prove b R O s fuel st) (ic3_prove b R O s fuel' st).
Proof. intros H. pose proof loop_fuel. unfold ic3_prove. same. Qed.

End Ic3Fuel.

Lemma stateless_run_fuel b R T fuel fuel' s : fuel <= fuel' ->
  refines (ic3_stateless_run b R T fuel s) (ic3_stateless_run b R T fuel' s).
Proof. intros H. pose proof prove_fuel. unfold ic3_stateless_run. same. Qed.

Lemma stateful_run_fuel b R SS fuel fuel' s : fuel <= fuel' ->
  refines (ic3_stateful_run b R SS fuel s) (ic3_stateful_run b R SS fuel' s).
Proof. intros H. pose proof prove_fuel. unfold ic3_stateful_run. same. Qed.

Lemma stateless_twice_run_fuel b R T fuel fuel' s : fuel <= fuel' ->
  refines (ic3_stateless_twice_run b R T fuel s) (ic3_stateless_twice_run b R T fuel' s).
Proof. intros H. pose proof prove_fuel. unfold ic3_stateless_twice_run. same. Qed.

Lemma stateful_twice_run_fuel b R SS fuel fuel' s : fuel <= fuel' ->
  refines (ic3_stateful_twice_run b R SS fuel s) (ic3_stateful_twice_run b R SS fuel' s).
Proof. intros H. pose proof prove_fuel. unfold ic3_stateful_twice_run. same. Qed.

Section PdrFuel.
Variable (b : build) (R : Random) (SS : StatefulSolver) (s : FSTS).

Lemma rec_block_fuel : forall fuel fuel' q st, fuel <= fuel' ->
  refines (rec_block_loop b R SS s fuel q st) (rec_block_loop b R SS s fuel' q st).
Proof.
  induction fuel as [|fuel IH]; intros [|fuel'] q st H; try lia; [apply refines_refl|destruct q; [apply refines_refl|left; reflexivity]|].
  cbn [rec_block_loop]. same.
Qed.

Lemma pdr_loop_fuel : forall outer outer' inner inner' st, outer <= outer' -> inner <= inner' ->
  refines (pdr_loop b R SS s inner outer st) (pdr_loop b R SS s inner' outer' st).
Proof.
  pose proof rec_block_fuel. induction outer as [|outer IH]; intros [|outer'] inner inner' st Hf Hi; try (left; reflexivity); [lia|].
  cbn [pdr_loop]. unfold rec_block_cube. cbn [t_frame]. same.
Qed.

Lemma pdr_prove_fuel fuel fuel' st : fuel <= fuel' ->
  refines (pdr_prove b R SS s fuel st) (pdr_prove b R SS s fuel' st).
Proof. intros H. pose proof pdr_loop_fuel. unfold pdr_prove. same. Qed.

Lemma pdr_run_fuel fuel fuel' : fuel <= fuel' ->
  refines (pdr_run b R SS fuel s) (pdr_run b R SS fuel' s).
Proof. intros H. pose proof pdr_prove_fuel. unfold pdr_run. same. Qed.

Lemma pdr_twice_run_fuel fuel fuel' : fuel <= fuel' ->
  refines (pdr_twice_run b R SS fuel s) (pdr_twice_run b R SS fuel' s).
Proof. intros H. pose proof pdr_prove_fuel. unfold pdr_twice_run. same. Qed.

End PdrFuel.

Lemma refines_res {A} (m m' : res A) : refines m m' -> m <> OutOfFuel -> m' = m.
Proof. intros [->|H] X; [congruence|exact H]. Qed.

Lemma stateless_any_fuel b R T fuel fuel' s : fuel <= fuel' ->
  (ic3_stateless b R T fuel s <> OutOfFuel -> ic3_stateless b R T fuel' s = ic3_stateless b R T fuel s) /\
  (ic3_stateless_twice b R T fuel s <> OutOfFuel ->
     ic3_stateless_twice b R T fuel' s = ic3_stateless_twice b R T fuel s).
Proof.
  intros H. split; apply refines_res; unfold ic3_stateless, ic3_stateless_twice.
  - pose proof stateless_run_fuel. same.
  - pose proof stateless_twice_run_fuel. same.
Qed.

Lemma stateful_any_fuel b R SS fuel fuel' s : fuel <= fuel' ->
  (ic3_stateful b R SS fuel s <> OutOfFuel -> ic3_stateful b R SS fuel' s = ic3_stateful b R SS fuel s) /\
  (ic3_stateful_twice b R SS fuel s <> OutOfFuel ->
     ic3_stateful_twice b R SS fuel' s = ic3_stateful_twice b R SS fuel s).
Proof.
  intros H. split; apply refines_res; unfold ic3_stateful, ic3_stateful_twice.
  - pose proof stateful_run_fuel. same.
  - pose proof stateful_twice_run_fuel. same.
Qed.

Lemma pdr_any_fuel b R SS fuel fuel' s : fuel <= fuel' ->
  (pdr b R SS fuel s <> OutOfFuel -> pdr b R SS fuel' s = pdr b R SS fuel s) /\
  (pdr_twice b R SS fuel s <> OutOfFuel -> pdr_twice b R SS fuel' s = pdr_twice b R SS fuel s).
Proof.
  intros H. split; apply refines_res; unfold pdr, pdr_twice.
  - pose proof pdr_run_fuel. same.
  - pose proof pdr_twice_run_fuel. same.
Qed.
