(** The theorems about the stateful provers for solvers that may also panic. *)
From Verif Require Import Base Formulas FormulaLogic Aig AigParse Fsts Bmc Solvers Ic3 Pdr Brute Spec SpecAig SpecAiger
  SpecFsts SpecAlg Tac Plain LogicFacts BruteFacts AigThms FstsThms BmcThms ConeThms Ic3Thms PdrThms ProverThms TwiceThms ReplaceFacts RescueThms.
Open Scope N_scope.

Lemma stateful_correct_sound SS : stateful_correct SS -> stateful_sound SS.
Proof.
  intros H st cs Hr. destruct (H st cs Hr) as [Ha Hs]. split.
  - intros f Hf Hl. destruct (Ha f Hf Hl) as (st' & ->). discriminate.
  - intros q c Hq Hc all. destruct (Hs q c Hq Hc) as [(asg & st' & -> & X & _)|(st' & -> & X)]; auto.
Qed.

Lemma brute_stateful_sound : stateful_sound brute_stateful.
Proof. exact (stateful_correct_sound _ brute_stateful_correct). Qed.

Lemma ic3_rescued b R SS fuel s :
  fits False eq (stateful_plain b R SS fuel s) (stateful_plain b R (rescue SS) fuel s).
Proof. eapply ic3_stateful_fits; auto. apply rescue_fits. Qed.
Lemma pdr_rescued b R SS fuel s : fits False eq (pdr_plain b R SS fuel s) (pdr_plain b R (rescue SS) fuel s).
Proof. eapply pdr_fits; auto. apply rescue_fits. Qed.

Lemma stateless_rescued b R T fuel s :
  fits False eq (stateless_plain b R T fuel s) (stateless_plain b R (rescue_stateless T) fuel s).
Proof. apply ic3_stateless_fits; auto. apply rescue_stateless_fits. Qed.

(** From the provers with their statistics to the ones without. *)
Lemma ic3_rescued_ok b R SS fuel s r : ic3_stateful b R SS fuel s = Ok r -> stateful_plain b R (rescue SS) fuel s = Ok r.
Proof. intros E. apply (fits_ok_inv _ _ _ (ic3_rescued b R SS fuel s)), stateful_plain_ok, E. Qed.
Lemma pdr_rescued_ok b R SS fuel s r : pdr b R SS fuel s = Ok r -> pdr_plain b R (rescue SS) fuel s = Ok r.
Proof. intros E. apply (fits_ok_inv _ _ _ (pdr_rescued b R SS fuel s)), pdr_plain_ok, E. Qed.
Lemma stateless_rescued_ok b R T fuel s r :
  ic3_stateless b R T fuel s = Ok r -> stateless_plain b R (rescue_stateless T) fuel s = Ok r.
Proof. intros E. apply (fits_ok_inv _ _ _ (stateless_rescued b R T fuel s)), stateless_plain_ok, E. Qed.
Lemma ic3_rescued_fuel b R SS fuel s : ic3_stateful b R SS fuel s = OutOfFuel -> stateful_plain b R (rescue SS) fuel s = OutOfFuel.
Proof. intros E. apply (fits_fuel_inv _ _ (ic3_rescued b R SS fuel s)), stateful_plain_fuel, E. Qed.
Lemma pdr_rescued_fuel b R SS fuel s : pdr b R SS fuel s = OutOfFuel -> pdr_plain b R (rescue SS) fuel s = OutOfFuel.
Proof. intros E. apply (fits_fuel_inv _ _ (pdr_rescued b R SS fuel s)), pdr_plain_fuel, E. Qed.
Lemma stateless_rescued_fuel b R T fuel s :
  ic3_stateless b R T fuel s = OutOfFuel -> stateless_plain b R (rescue_stateless T) fuel s = OutOfFuel.
Proof. intros E. apply (fits_fuel_inv _ _ (stateless_rescued b R T fuel s)), stateless_plain_fuel, E. Qed.

Lemma stateless_sound_proof b c flag s R T fuel inv : system_of b c flag s -> numbering_fits c flag ->
  random_ok R -> solver_sound_below 2147483647 T ->
  ic3_stateless b R T fuel s = Ok (Proof inv) ->
  safe c flag /\ inductive_safe c flag (fun w => cnf_true w inv) /\
  forall b' T1 T2 T3 o1 o2,
    solver_correct_below 2147483647 T1 -> solver_correct_below 2147483647 T2 ->
    solver_correct_below 2147483647 T3 -> order_ok o1 -> order_ok o2 ->
    check_invariant b' T1 T2 T3 o1 o2 s inv = Ok tt.
Proof.
  intros H1 H2 H3 HT E. apply (stateless_rescued_ok b R T fuel s _) in E.
  apply rescue_stateless_correct in HT as [HT HTt].
  exact (stateless_proof b c flag s R _ fuel inv H1 H2 H3 HT HTt E).
Qed.

Lemma stateless_sound_ctx b c flag s R T fuel d : system_of b c flag s -> numbering_fits c flag ->
  random_ok R -> solver_sound_below 2147483647 T ->
  ic3_stateless b R T fuel s = Ok (ProofCTX d) ->
  unsafe c flag /\ safe_before c flag (N.to_nat d).
Proof.
  intros H1 H2 H3 HT E. apply (stateless_rescued_ok b R T fuel s _) in E.
  apply rescue_stateless_correct in HT as [HT HTt].
  exact (stateless_ctx b c flag s R _ fuel d H1 H2 H3 HT HTt E).
Qed.

Lemma stateless_sound_fuel b c flag s R T fuel : system_of b c flag s -> numbering_fits c flag ->
  random_ok R -> solver_sound_below 2147483647 T -> enough_fuel c fuel ->
  ic3_stateless b R T fuel s <> OutOfFuel.
Proof.
  intros H1 H2 H3 HT Hfu E. apply (stateless_rescued_fuel b R T fuel s) in E.
  apply rescue_stateless_correct in HT as [HT HTt].
  exact (stateless_fuel b c flag s R _ fuel H1 H2 H3 HT HTt Hfu E).
Qed.

Lemma stateless_sound_twice_panics b c flag s R T fuel r : system_of b c flag s -> numbering_fits c flag ->
  random_ok R -> solver_sound_below 2147483647 T -> b = Debug -> safe_before c flag 2 ->
  ic3_stateless b R T fuel s = Ok r -> ic3_stateless_twice b R T fuel s = Panic.
Proof.
  intros H1 H2 HR HT Hb Hc E. apply (stateless_rescued_ok b R T fuel s _) in E.
  apply rescue_stateless_correct in HT as [HT HTt].
  apply (linked_panic _ _ _ (proj1 (stateless_twice_link _ _ _ _ _))).
  eapply fits_panic_inv; [eapply ic3_stateless_twice_fits; [auto|apply rescue_stateless_fits]|].
  exact (stateless_twice_panics b c flag s R _ fuel r H1 H2 HR HT HTt Hb Hc E).
Qed.

Lemma bmc_sound_verdict m b c flag s R T1 T2 clk fuel r : system_of b c flag s -> numbering_fits c flag ->
  random_ok R -> solver_sound_below 2147483647 T1 -> solver_correct_below m T2 -> never_times_out clk ->
  bmc_reaches m c flag ->
  ic3_stateless b R T1 fuel s = Ok r ->
  ((exists d, r = ProofCTX d) <->
   exists limit asg d, bmc_range m c limit /\ bmc_search b T2 clk s limit = Ok (CTX asg d)).
Proof.
  intros H1 H2 HR HT HT2 Hc Hm E. apply (stateless_rescued_ok b R T1 fuel s _) in E.
  apply rescue_stateless_correct in HT as [HT HTt].
  exact (bmc_verdict m b c flag s R _ T2 clk fuel r H1 H2 HR HT HTt HT2 Hc Hm E).
Qed.

Lemma sound_proof b c flag s R SS fuel inv : system_of b c flag s -> numbering_fits c flag ->
  random_ok R -> stateful_sound SS ->
  ic3_stateful b R SS fuel s = Ok (Proof inv) ->
  safe c flag /\ inductive_safe c flag (fun w => cnf_true w inv) /\
  forall b' T1 T2 T3 o1 o2,
    solver_correct_below 2147483647 T1 -> solver_correct_below 2147483647 T2 ->
    solver_correct_below 2147483647 T3 -> order_ok o1 -> order_ok o2 ->
    check_invariant b' T1 T2 T3 o1 o2 s inv = Ok tt.
Proof.
  intros H1 H2 H3 HS E. apply (ic3_rescued_ok b R SS fuel s _) in E.
  exact (stateful_proof b c flag s R _ fuel inv H1 H2 H3 (rescue_correct SS HS) E).
Qed.

Lemma sound_ctx b c flag s R SS fuel d : system_of b c flag s -> numbering_fits c flag ->
  random_ok R -> stateful_sound SS ->
  ic3_stateful b R SS fuel s = Ok (ProofCTX d) ->
  unsafe c flag /\ safe_before c flag (N.to_nat d).
Proof.
  intros H1 H2 H3 HS E. apply (ic3_rescued_ok b R SS fuel s _) in E.
  exact (stateful_ctx b c flag s R _ fuel d H1 H2 H3 (rescue_correct SS HS) E).
Qed.

Lemma sound_fuel b c flag s R SS fuel : system_of b c flag s -> numbering_fits c flag ->
  random_ok R -> stateful_sound SS -> enough_fuel c fuel ->
  ic3_stateful b R SS fuel s <> OutOfFuel.
Proof.
  intros H1 H2 H3 HS Hfu E. apply (ic3_rescued_fuel b R SS fuel s) in E.
  exact (stateful_fuel b c flag s R _ fuel H1 H2 H3 (rescue_correct SS HS) Hfu E).
Qed.

Lemma sound_pdr_proof c flag s b : system_of b c flag s -> numbering_fits c flag ->
  forall SS, stateful_sound SS -> forall R, random_ok R -> forall fuel inv,
  b = Debug \/ bad_latches_read c flag -> pdr b R SS fuel s = Ok (Proof inv) ->
  safe c flag /\ inductive_safe c flag (fun w => cnf_true w inv) /\
  forall b' T1 T2 T3 o1 o2,
    solver_correct_below 2147483647 T1 -> solver_correct_below 2147483647 T2 ->
    solver_correct_below 2147483647 T3 -> order_ok o1 -> order_ok o2 ->
    check_invariant b' T1 T2 T3 o1 o2 s inv = Ok tt.
Proof.
  intros H1 H2 SS HS R HR fuel inv Hl E. apply (pdr_rescued_ok b R SS fuel s _) in E.
  exact (pdr_proof c flag s b H1 H2 _ (rescue_correct SS HS) R HR fuel inv Hl E).
Qed.

Lemma sound_pdr_ctx c flag s b : system_of b c flag s -> numbering_fits c flag ->
  forall SS, stateful_sound SS -> forall R, random_ok R -> forall fuel d,
  bad_latches_read c flag -> pdr b R SS fuel s = Ok (ProofCTX d) ->
  unsafe c flag /\ safe_before c flag (N.to_nat d).
Proof.
  intros H1 H2 SS HS R HR fuel d Hl E. apply (pdr_rescued_ok b R SS fuel s _) in E.
  exact (pdr_ctx c flag s b H1 H2 _ (rescue_correct SS HS) R HR fuel d Hl E).
Qed.

Lemma sound_pdr_stops c flag s b : system_of b c flag s -> numbering_fits c flag ->
  forall SS, stateful_sound SS -> forall R, random_ok R -> forall fuel,
  enough_pdr_fuel c fuel -> pdr b R SS fuel s <> OutOfFuel.
Proof.
  intros H1 H2 SS HS R HR fuel Hfu E. apply (pdr_rescued_fuel b R SS fuel s) in E.
  exact (pdr_stops c flag s b H1 H2 _ (rescue_correct SS HS) R HR fuel Hfu E).
Qed.

Lemma sound_agree b c flag s R1 R2 T SS fuel1 fuel2 r1 r2 : system_of b c flag s -> numbering_fits c flag ->
  random_ok R1 -> random_ok R2 -> solver_sound_below 2147483647 T -> stateful_sound SS ->
  ic3_stateless b R1 T fuel1 s = Ok r1 -> ic3_stateful b R2 SS fuel2 s = Ok r2 ->
  (verdict_proof r1 <-> verdict_proof r2).
Proof.
  intros H1 H2 H3 H4 HT HS E1 E. apply (ic3_rescued_ok b R2 SS fuel2 s _) in E.
  apply (stateless_rescued_ok b R1 T fuel1 s _) in E1.
  apply rescue_stateless_correct in HT as [HT HTt].
  exact (ic3_agree b c flag s R1 R2 _ _ fuel1 fuel2 r1 r2 H1 H2 H3 H4 HT HTt (rescue_correct SS HS) E1 E).
Qed.

(** ... and so does PDR. *)
Lemma sound_pdr_agree b c flag s R1 R2 T SS fuel1 fuel2 r1 r2 : system_of b c flag s -> numbering_fits c flag ->
  random_ok R1 -> random_ok R2 -> solver_sound_below 2147483647 T -> stateful_sound SS ->
  bad_latches_read c flag ->
  ic3_stateless b R1 T fuel1 s = Ok r1 -> pdr b R2 SS fuel2 s = Ok r2 ->
  (verdict_proof r1 <-> verdict_proof r2).
Proof.
  intros Hs Hf H1 H2 HT HS Hl E1 E2.
  assert (V1 : verdict_proof r1 <-> safe c flag).
  { destruct r1 as [inv|d].
    - destruct (stateless_sound_proof b c flag s R1 T fuel1 inv Hs Hf H1 HT E1) as (X & _).
      split; auto. intros _. exists inv. auto.
    - destruct (stateless_sound_ctx b c flag s R1 T fuel1 d Hs Hf H1 HT E1) as ((w & t & W1 & W2) & _).
      split; [intros (inv & X); discriminate|]. intros X. elim (X w W1 t W2). }
  assert (V2 : verdict_proof r2 <-> safe c flag).
  { destruct r2 as [inv|d].
    - destruct (sound_pdr_proof c flag s b Hs Hf SS HS R2 H2 fuel2 inv (or_intror Hl) E2) as (X & _).
      split; auto. intros _. exists inv. auto.
    - destruct (sound_pdr_ctx c flag s b Hs Hf SS HS R2 H2 fuel2 d Hl E2) as ((w & t & W1 & W2) & _).
      split; [intros (inv & X); discriminate|]. intros X. elim (X w W1 t W2). }
  rewrite V1, V2. reflexivity.
Qed.

Lemma sound_ic3_depth b c flag s R1 R2 T SS fuel : system_of b c flag s -> numbering_fits c flag ->
  random_ok R1 -> random_ok R2 -> solver_sound_below 2147483647 T -> stateful_sound SS ->
  forall d n, shortest c flag n ->
  ic3_stateless b R1 T fuel s = Ok (ProofCTX d) \/ ic3_stateful b R2 SS fuel s = Ok (ProofCTX d) ->
  ((n <= 1)%nat -> d = N.of_nat n) /\ ((1 < n)%nat -> 1 <= d < N.of_nat n).
Proof.
  intros Hs Hf H1 H2 HT HS d n Hn [E|E].
  - apply (stateless_rescued_ok b R1 T fuel s _) in E.
    apply rescue_stateless_correct in HT as [HT HTt].
    exact (stateless_depth b c flag s R1 _ fuel d n Hs Hf H1 HT HTt Hn E).
  - apply (ic3_rescued_ok b R2 SS fuel s _) in E.
    exact (stateful_depth b c flag s R2 _ fuel d n Hs Hf H2 (rescue_correct SS HS) Hn E).
Qed.

Lemma sound_pdr_depth b c flag s R SS fuel : system_of b c flag s -> numbering_fits c flag ->
  random_ok R -> stateful_sound SS -> bad_latches_read c flag ->
  forall d n, shortest c flag n -> pdr b R SS fuel s = Ok (ProofCTX d) ->
  ((n <= 1)%nat -> d = N.of_nat n) /\ ((1 < n)%nat -> 1 <= d <= N.of_nat n).
Proof.
  intros Hs Hf H1 HS Hl d n Hn E. apply (pdr_rescued_ok b R SS fuel s _) in E.
  exact (pdr_depth_shortest c flag s b Hs Hf _ (rescue_correct SS HS) R H1 fuel d n Hl Hn E).
Qed.

Lemma shift_shortest : shortest shift_circuit false 2.
Proof.
  destruct (shift_system Debug) as (s & E & Hs & Hn).
  assert (X : exists asg, bmc_search Debug brute (mkClock (fun _ => false) (fun _ => false)) s 7 = Ok (CTX asg 2)).
  { vm_compute in E. injection E as <-. eexists. vm_compute. reflexivity. }
  destruct X as (asg & X).
  destruct (bmc_ctx_sound 2147483648 Debug _ _ _ brute (mkClock (fun _ => false) (fun _ => false)) 7 asg 2 Hs (or_intror Hn)) as (_ & H1 & H2);
    [apply correct_sound, correct_below, brute_correct|lia|auto|exact X|].
  split; [exact H1|].
  destruct (H2 (fun v => match get_value asg v with Some x => x | None => false end)) as (w & W1 & W2 & _).
  - intros v x ->. reflexivity.
  - exists w. auto.
Qed.

Lemma shift_latches_read : bad_latches_read shift_circuit false.
Proof.
  intros l [<-|[]] (nx & r & j & Hj & Hv).
  destruct j as [|[|[|j]]]; [discriminate Hv..|destruct j; discriminate Hj].
Qed.

Lemma sound_depth_lower b c flag s R1 R2 R3 T S2 S3 fuel : system_of b c flag s -> numbering_fits c flag ->
  random_ok R1 -> random_ok R2 -> random_ok R3 ->
  solver_sound_below 2147483647 T -> stateful_sound S2 -> stateful_sound S3 ->
  forall d w t, run c w -> is_bad c flag (w t) ->
  ic3_stateless b R1 T fuel s = Ok (ProofCTX d) \/ ic3_stateful b R2 S2 fuel s = Ok (ProofCTX d) \/
  (b = Debug \/ bad_latches_read c flag) /\ pdr b R3 S3 fuel s = Ok (ProofCTX d) ->
  (d <= N.of_nat t).
Proof.
  intros H1 H2 H3 H4 H5 HT HS2 HS3 d w t Hw Hb H.
  apply rescue_stateless_correct in HT as [HT HTt].
  eapply (depth_lower b c flag s R1 R2 R3 (rescue_stateless T) (rescue S2) (rescue S3) fuel H1 H2 H3 H4 H5 HT HTt
    (rescue_correct _ HS2) (rescue_correct _ HS3) d w t Hw Hb).
  destruct H as [H|[H|[Hl H]]].
  - left. exact (stateless_rescued_ok _ _ _ _ _ _ H).
  - right. left. exact (ic3_rescued_ok _ _ _ _ _ _ H).
  - right. right. split; auto. exact (pdr_rescued_ok _ _ _ _ _ _ H).
Qed.

Lemma sound_twice_panics b c flag s R SS fuel r : system_of b c flag s -> numbering_fits c flag ->
  random_ok R -> stateful_sound SS -> b = Debug -> safe_before c flag 2 ->
  ic3_stateful b R SS fuel s = Ok r -> ic3_stateful_twice b R SS fuel s = Panic.
Proof.
  intros H1 H2 HR HS Hb Hc E. apply (ic3_rescued_ok b R SS fuel s _) in E.
  apply (linked_panic _ _ _ (proj1 (stateful_twice_link _ _ _ _ _))).
  eapply fits_panic_inv; [eapply ic3_stateful_twice_fits; [auto|apply rescue_fits]|].
  exact (stateful_twice_panics b c flag s R _ fuel r H1 H2 HR (rescue_correct SS HS) Hb Hc E).
Qed.

Lemma sound_pdr_second_panics c flag s b : system_of b c flag s -> numbering_fits c flag ->
  forall SS, stateful_sound SS -> forall R fuel r,
  pdr b R SS fuel s = Ok r -> pdr_twice b R SS fuel s = Panic.
Proof.
  intros H1 H2 SS HS R fuel r E. apply (pdr_rescued_ok b R SS fuel s _) in E.
  apply (linked_panic _ _ _ (proj1 (pdr_twice_link _ _ _ _ _))).
  eapply fits_panic_inv; [eapply pdr_twice_fits; [auto|apply rescue_fits]|].
  exact (pdr_second_panics c flag s b H1 H2 _ (rescue_correct SS HS) R fuel r E).
Qed.

Lemma pdr_not_twice b R SS s fuel r : pdr_twice b R SS fuel s <> Ok r.
Proof.
  intros E. apply (linked_ok _ _ _ _ (proj1 (pdr_twice_link _ _ _ _ _))) in E.
  apply (pdr_never_twice _ _ _ _ _ _ E).
Qed.

Lemma stateless_sound_twice b c flag s R T fuel r1 r2 : system_of b c flag s -> numbering_fits c flag ->
  random_ok R -> solver_sound_below 2147483647 T ->
  ic3_stateless_twice b R T fuel s = Ok (r1, r2) -> forall r, r = r1 \/ r = r2 ->
  (verdict_proof r <-> safe c flag) /\ forall d, r = ProofCTX d -> safe_before c flag (N.to_nat d).
Proof.
  intros H1 H2 HR HT E. apply rescue_stateless_correct in HT as [HT HTt].
  apply (linked_ok _ _ _ _ (proj1 (stateless_twice_link _ _ _ _ _))) in E.
  eapply fits_ok_inv in E; [|eapply ic3_stateless_twice_fits; [auto|apply rescue_stateless_fits]].
  assert (Hc : b = Release \/ ~ safe_before c flag 2).
  { destruct b; [right|left; auto]. intros Hc.
    destruct (stateless_plain Debug R (rescue_stateless T) fuel s) as [r| |] eqn:E1.
    - rewrite (stateless_twice_panics Debug c flag s R _ fuel r H1 H2 HR HT HTt eq_refl Hc E1) in E. discriminate.
    - unfold stateless_plain, stateless_twice_plain in *. destruct (ic3_cache Debug s) as [C| |]; cbn [bind] in *; try discriminate.
      destruct (ic3_prove _ _ _ _ _ _) as [(? & ?)| |]; cbn [bind] in *; discriminate.
    - unfold stateless_plain, stateless_twice_plain in *. destruct (ic3_cache Debug s) as [C| |]; cbn [bind] in *; try discriminate.
      destruct (ic3_prove _ _ _ _ _ _) as [(? & ?)| |]; cbn [bind] in *; discriminate. }
  apply (stateless_twice_right b c flag s R _ fuel H1 H2 HR HT HTt Hc). auto.
Qed.

Lemma stateful_sound_twice b c flag s R SS fuel r1 r2 : system_of b c flag s -> numbering_fits c flag ->
  random_ok R -> stateful_sound SS ->
  ic3_stateful_twice b R SS fuel s = Ok (r1, r2) -> forall r, r = r1 \/ r = r2 ->
  (verdict_proof r <-> safe c flag) /\ forall d, r = ProofCTX d -> safe_before c flag (N.to_nat d).
Proof.
  intros H1 H2 HR HS E. apply rescue_correct in HS.
  apply (linked_ok _ _ _ _ (proj1 (stateful_twice_link _ _ _ _ _))) in E.
  eapply fits_ok_inv in E; [|eapply ic3_stateful_twice_fits; [auto|apply rescue_fits]].
  assert (Hc : b = Release \/ ~ safe_before c flag 2).
  { destruct b; [right|left; auto]. intros Hc.
    destruct (stateful_plain Debug R (rescue SS) fuel s) as [r| |] eqn:E1.
    - rewrite (stateful_twice_panics Debug c flag s R _ fuel r H1 H2 HR HS eq_refl Hc E1) in E. discriminate.
    - unfold stateful_plain, stateful_twice_plain in *. destruct (ic3_cache Debug s) as [C| |]; cbn [bind] in *; try discriminate.
      destruct (sf_new _ _) as [x| |]; cbn [bind] in *; try discriminate.
      destruct (ic3_prove _ _ _ _ _ _) as [(? & ?)| |]; cbn [bind] in *; discriminate.
    - unfold stateful_plain, stateful_twice_plain in *. destruct (ic3_cache Debug s) as [C| |]; cbn [bind] in *; try discriminate.
      destruct (sf_new _ _) as [x| |]; cbn [bind] in *; try discriminate.
      destruct (ic3_prove _ _ _ _ _ _) as [(? & ?)| |]; cbn [bind] in *; discriminate. }
  apply (stateful_twice_right b c flag s R _ fuel H1 H2 HR HS Hc). auto.
Qed.

(* --------------------------------------------------------------- answers with statistics *)

Lemma stateless_answers b c flag s R T fuel : system_of b c flag s -> numbering_fits c flag ->
  random_ok R -> solver_correct_below 2147483647 T -> solver_total_below 2147483647 T ->
  enough_fuel c fuel -> depth_fits c flag ->
  exists r n, ic3_stateless_run b R T fuel s = Ok (r, n) /\ (verdict_proof r <-> safe c flag) /\
    ic3_stateless b R T fuel s = counted_answer b (N.of_nat n) r.
Proof.
  intros H1 H2 H3 H4 H5 H6 H7. destruct (stateless_total b c flag s R T fuel H1 H2 H3 H4 H5 H6 H7) as (r & E & V).
  destruct (proj2 (stateless_link b R T fuel s) r E) as (n & A & B). eauto.
Qed.

Lemma stateful_answers b c flag s R SS fuel : system_of b c flag s -> numbering_fits c flag ->
  random_ok R -> stateful_correct SS -> enough_fuel c fuel -> depth_fits c flag ->
  exists r n, ic3_stateful_run b R SS fuel s = Ok (r, n) /\ (verdict_proof r <-> safe c flag) /\
    ic3_stateful b R SS fuel s = counted_answer b (N.of_nat n) r.
Proof.
  intros H1 H2 H3 H4 H5 H6. destruct (stateful_total b c flag s R SS fuel H1 H2 H3 H4 H5 H6) as (r & E & V).
  destruct (proj2 (stateful_link b R SS fuel s) r E) as (n & A & B). eauto.
Qed.

Lemma pdr_answers c flag s b : system_of b c flag s -> numbering_fits c flag ->
  forall SS, stateful_correct SS -> forall R, random_ok R -> forall fuel,
  bad_latches_read c flag -> states_readable c flag -> enough_pdr_fuel c fuel -> depth_fits c flag ->
  exists r n, pdr_run b R SS fuel s = Ok (r, n) /\ (verdict_proof r <-> safe c flag) /\
    pdr b R SS fuel s = counted_answer b (most_calls n) r.
Proof.
  intros H1 H2 SS H3 R H4 fuel H5 H6 H7 H8.
  destruct (pdr_total c flag s b H1 H2 SS H3 R H4 fuel H5 H6 H7 H8) as (r & E & V).
  destruct (proj2 (pdr_link b R SS fuel s) r E) as (n & A & B). eauto.
Qed.

Lemma answers_agree b c flag s R1 R2 R3 T S2 S3 fuel : system_of b c flag s -> numbering_fits c flag ->
  random_ok R1 -> random_ok R2 -> random_ok R3 ->
  solver_correct_below 2147483647 T -> solver_total_below 2147483647 T -> stateful_correct S2 -> stateful_correct S3 ->
  bad_latches_read c flag -> states_readable c flag -> depth_fits c flag ->
  enough_fuel c fuel -> enough_pdr_fuel c fuel ->
  exists r1 r2 r3 n1 n2 n3,
    ic3_stateless_run b R1 T fuel s = Ok (r1, n1) /\
    ic3_stateless b R1 T fuel s = counted_answer b (N.of_nat n1) r1 /\
    ic3_stateful_run b R2 S2 fuel s = Ok (r2, n2) /\
    ic3_stateful b R2 S2 fuel s = counted_answer b (N.of_nat n2) r2 /\
    pdr_run b R3 S3 fuel s = Ok (r3, n3) /\
    pdr b R3 S3 fuel s = counted_answer b (most_calls n3) r3 /\
    (verdict_proof r1 <-> verdict_proof r2) /\ (verdict_proof r1 <-> verdict_proof r3).
Proof.
  intros Hs Hf H1 H2 H3 HT HTt HS2 HS3 Hl Hr Hd Hfu Hfp.
  destruct (stateless_answers b c flag s R1 T fuel Hs Hf H1 HT HTt Hfu Hd) as (r1 & n1 & E1 & V1 & F1).
  destruct (stateful_answers b c flag s R2 S2 fuel Hs Hf H2 HS2 Hfu Hd) as (r2 & n2 & E2 & V2 & F2).
  destruct (pdr_answers c flag s b Hs Hf S3 HS3 R3 H3 fuel Hl Hr Hfp Hd) as (r3 & n3 & E3 & V3 & F3).
  exists r1, r2, r3, n1, n2, n3. do 6 (split; auto). rewrite V1, V2, V3. split; reflexivity.
Qed.

(* ------------------------------------------------------------------------------- C59 *)

Lemma depth_below_cone b c flag s R1 R2 R3 T S2 S3 fuel ls d : system_of b c flag s -> numbering_fits c flag ->
  random_ok R1 -> random_ok R2 -> random_ok R3 ->
  solver_sound_below 2147483647 T -> stateful_sound S2 -> stateful_sound S3 -> covers_bad c flag ls ->
  ic3_stateless b R1 T fuel s = Ok (ProofCTX d) \/ ic3_stateful b R2 S2 fuel s = Ok (ProofCTX d) \/
  bad_latches_read c flag /\ pdr b R3 S3 fuel s = Ok (ProofCTX d) ->
  d < 2 ^ lenN ls.
Proof.
  intros Hs Hf HR1 HR2 HR3 HT H2 H3 Hc E.
  assert (Hwf : circuit_wf c) by (destruct Hs as (o & a & _ & H & _); exact H).
  assert (G : unsafe c flag).
  { destruct E as [E|[E|(Hl & E)]].
    - apply (stateless_sound_ctx b c flag s R1 T fuel d Hs Hf HR1 HT E).
    - apply (sound_ctx b c flag s R2 S2 fuel d Hs Hf HR2 H2 E).
    - apply (sound_pdr_ctx c flag s b Hs Hf S3 H3 R3 HR3 fuel d Hl E). }
  destruct G as (w & t & Hr & Hb). destruct (short_counterexample c flag ls w t Hwf Hc Hr Hb) as (w' & t' & A & B & C).
  assert (X : N.of_nat (Nat.pow 2 (length ls)) = 2 ^ lenN ls) by (rewrite Nat2N.inj_pow; reflexivity).
  assert (Y : d <= N.of_nat t'); [|lia].
  eapply (sound_depth_lower b c flag s R1 R2 R3 T S2 S3 fuel) with (w := w'); eauto.
  destruct E as [E|[E|(Hl & E)]]; auto.
Qed.

Lemma shift_cone : covers_bad shift_circuit false [2; 3].
Proof.
  intros v Hv Hi. assert (G : v = 1 \/ v = 2 \/ v = 3 \/ v = 5).
  { clear Hv. induction Hi as [l Hl|v r0 r1 r Hi IH (j & Hj & Ej) Hr|v nx r Hi IH (j & Hj & Ej)].
    - destruct Hl as [<-|[]]. vm_compute. tauto.
    - destruct j as [|[|j]]; cbn in Hj; try discriminate. injection Hj as <- <-.
      destruct Hr as [-> | ->]; vm_compute; tauto.
    - destruct j as [|[|[|[|j]]]]; cbn in Hj; try discriminate; injection Hj as <- <-; vm_compute in Ej |- *;
        subst v; try tauto; intuition discriminate. }
  destruct Hv as (nx & r & j & Hj & Ej). destruct G as [->|[->|[->| ->]]]; cbn; auto;
    destruct j as [|[|[|[|j]]]]; cbn in Hj; try discriminate; vm_compute in Ej; discriminate.
Qed.

Lemma shift_cone_least : ~ covers_bad shift_circuit false [2].
Proof.
  intros H. destruct (H 3) as [X|[]]; [| |discriminate X].
  - exists 4, 0, 1%nat. split; reflexivity.
  - apply (influences_gate _ _ 5 6 4 6); [|exists 0%nat; split; reflexivity|auto].
    apply (influences_root _ _ 10). left. reflexivity.
Qed.

(** A two-bit counter; bad when both bits are set. *)
Definition counter_circuit : circuit := mkCircuit 0 [(3, 0); (10, 0)] [] [6] [] [(4, 2); (5, 3); (9, 7)].
