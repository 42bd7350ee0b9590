(** From file to verdict. *)
From Verif Require Import Base Formulas FormulaLogic Aig AigParse Fsts Bmc Solvers Ic3 Pdr Brute Spec
  SpecText SpecAig SpecAiger SpecFile SpecFsts SpecAlg SpecSolver SpecEnd Tac Plain LogicFacts SolverFacts
  StatefulFacts CadicalFacts AigThms TailFacts FstsThms BmcThms Ic3Thms PdrThms ReplaceFacts
  RescueThms SoundThms.
Open Scope N_scope.

Lemma complete_correct b T : complete_stateless b T ->
  solver_correct_below 2147483647 T /\ solver_total_below 2147483647 T.
Proof.
  intros []; split; auto using cadical_correct, cadical_total, correct_below, total_below,
    splr_correct, splr_total.
Qed.

Lemma shipped_correct b T : shipped_stateless b T -> solver_correct_below 2147483647 T.
Proof.
  intros [T' H|E order Ho HE]; [apply (complete_correct b T' H)|].
  auto using correct_below, varisat_correct.
Qed.

Lemma shipped_sound b T : shipped_stateless b T -> solver_sound_below 2147483647 T.
Proof. intros H. apply correct_sound. apply (shipped_correct b T H). Qed.

Lemma shipped_debug T : shipped_stateless Debug T -> solver_sound_below 2147483648 T.
Proof.
  intros [T' []|E order Ho HE]; auto using cadical_debug_sound;
    apply correct_sound, correct_below; auto using splr_correct, varisat_correct.
Qed.

Lemma complete_stateful_correct b SS : complete_stateful b SS -> stateful_correct SS.
Proof. intros []. apply minisat_stateful_correct; auto. Qed.

Lemma shipped_stateful_sound b SS : shipped_stateful b SS -> stateful_sound SS.
Proof.
  intros [b' S H|E order Ho HE].
  - apply stateful_correct_sound. apply (complete_stateful_correct b' S H).
  - apply cadical_stateful_debug_sound; auto.
Qed.

(** A file that is read gives a system of its circuit. *)
Lemma file_system v c syms comment b order a flag s : Forall (fun x => x < 256) v ->
  file v c syms comment -> order_ok order ->
  from_vector_of_bytes v = Ok a -> from_aig b order a flag = Ok s ->
  represents a c /\ circuit_fits c /\ system_of b c flag s.
Proof.
  intros HB Hf Ho Ea Es. pose proof Hf as (Hwf & (Hfit & _) & _).
  destruct (file_export v c syms comment HB Hf) as (a' & _ & _ & _ & Ea' & Hr & _).
  rewrite Ea in Ea'. inv Ea'. split; auto. split; auto. exists order, a'. auto.
Qed.

Lemma end_loads v c syms comment b order flag : Forall (fun x => x < 256) v ->
  file v c syms comment -> order_ok order -> c_constraints c = [] -> numbering_fits c flag ->
  exists a s, from_vector_of_bytes v = Ok a /\ from_aig b order a flag = Ok s.
Proof.
  intros HB Hf Ho Hc Hn. pose proof Hf as (Hwf & (Hfit & _) & _).
  destruct (file_export v c syms comment HB Hf) as (a & _ & _ & _ & Ea & Hr & _).
  destruct (from_aig_accepts b order a c flag Hr Hwf Hfit Ho Hc Hn) as (s & Es). eauto.
Qed.

Lemma end_verdicts v c syms comment b order a flag s R fuel r : Forall (fun x => x < 256) v ->
  file v c syms comment -> order_ok order -> numbering_fits c flag ->
  from_vector_of_bytes v = Ok a -> from_aig b order a flag = Ok s -> random_ok R ->
  (exists T, shipped_stateless b T /\ ic3_stateless b R T fuel s = Ok r) \/
  (exists SS, shipped_stateful b SS /\ ic3_stateful b R SS fuel s = Ok r) ->
  right_verdict c flag r.
Proof.
  intros HB Hf Ho Hn Ea Es HR [(T & HT & E)|(SS & HS & E)];
    destruct (file_system _ _ _ _ _ _ _ _ _ HB Hf Ho Ea Es) as (_ & _ & Hs);
    destruct r as [inv|d]; cbn [right_verdict].
  - destruct (stateless_sound_proof b c flag s R T fuel inv Hs Hn HR (shipped_sound b T HT) E)
      as (X & Y & _); auto.
  - apply (stateless_sound_ctx b c flag s R T fuel d Hs Hn HR (shipped_sound b T HT) E).
  - destruct (sound_proof b c flag s R SS fuel inv Hs Hn HR (shipped_stateful_sound b SS HS) E)
      as (X & Y & _); auto.
  - apply (sound_ctx b c flag s R SS fuel d Hs Hn HR (shipped_stateful_sound b SS HS) E).
Qed.

Lemma end_pdr_verdicts v c syms comment b order a flag s R fuel SS r : Forall (fun x => x < 256) v ->
  file v c syms comment -> order_ok order -> numbering_fits c flag -> bad_latches_read c flag ->
  from_vector_of_bytes v = Ok a -> from_aig b order a flag = Ok s -> random_ok R ->
  shipped_stateful b SS -> pdr b R SS fuel s = Ok r -> right_verdict c flag r.
Proof.
  intros HB Hf Ho Hn Hl Ea Es HR HS E.
  destruct (file_system _ _ _ _ _ _ _ _ _ HB Hf Ho Ea Es) as (_ & _ & Hs).
  destruct r as [inv|d]; cbn [right_verdict].
  - destruct (sound_pdr_proof c flag s b Hs Hn SS (shipped_stateful_sound b SS HS) R HR fuel inv
      (or_intror Hl) E) as (X & Y & _); auto.
  - apply (sound_pdr_ctx c flag s b Hs Hn SS (shipped_stateful_sound b SS HS) R HR fuel d Hl E).
Qed.

Lemma end_certificates v c syms comment b order a flag s R fuel inv : Forall (fun x => x < 256) v ->
  file v c syms comment -> order_ok order -> numbering_fits c flag ->
  from_vector_of_bytes v = Ok a -> from_aig b order a flag = Ok s -> random_ok R ->
  (exists T, shipped_stateless b T /\ ic3_stateless b R T fuel s = Ok (Proof inv)) \/
  (exists SS, shipped_stateful b SS /\
     (ic3_stateful b R SS fuel s = Ok (Proof inv) \/
      (b = Debug \/ bad_latches_read c flag) /\ pdr b R SS fuel s = Ok (Proof inv))) ->
  forall b' T1 T2 T3 o1 o2, shipped_stateless b' T1 -> shipped_stateless b' T2 ->
    shipped_stateless b' T3 -> order_ok o1 -> order_ok o2 ->
    check_invariant b' T1 T2 T3 o1 o2 s inv = Ok tt.
Proof.
  intros HB Hf Ho Hn Ea Es HR H b' T1 T2 T3 o1 o2 H1 H2 H3.
  apply shipped_correct in H1, H2, H3. revert b' T1 T2 T3 o1 o2 H1 H2 H3.
  destruct (file_system _ _ _ _ _ _ _ _ _ HB Hf Ho Ea Es) as (_ & _ & Hs).
  destruct H as [(T & HT & E)|(SS & HS & [E|(Hl & E)])].
  - apply (stateless_sound_proof b c flag s R T fuel inv Hs Hn HR (shipped_sound b T HT) E).
  - apply (sound_proof b c flag s R SS fuel inv Hs Hn HR (shipped_stateful_sound b SS HS) E).
  - apply (sound_pdr_proof c flag s b Hs Hn SS (shipped_stateful_sound b SS HS) R HR fuel inv Hl E).
Qed.

Lemma end_answers v c syms comment b order flag R fuel : Forall (fun x => x < 256) v ->
  file v c syms comment -> order_ok order -> c_constraints c = [] -> numbering_fits c flag ->
  random_ok R -> enough_fuel c fuel -> depth_fits c flag ->
  exists a s, from_vector_of_bytes v = Ok a /\ from_aig b order a flag = Ok s /\
  (forall T, complete_stateless b T ->
     exists r n, ic3_stateless_run b R T fuel s = Ok (r, n) /\ (verdict_proof r <-> safe c flag) /\
       ic3_stateless b R T fuel s = counted_answer b (N.of_nat n) r) /\
  (forall SS, complete_stateful b SS ->
     exists r n, ic3_stateful_run b R SS fuel s = Ok (r, n) /\ (verdict_proof r <-> safe c flag) /\
       ic3_stateful b R SS fuel s = counted_answer b (N.of_nat n) r) /\
  (bad_latches_read c flag -> states_readable c flag -> enough_pdr_fuel c fuel ->
   forall SS, complete_stateful b SS ->
     exists r n, pdr_run b R SS fuel s = Ok (r, n) /\ (verdict_proof r <-> safe c flag) /\
       pdr b R SS fuel s = counted_answer b (most_calls n) r).
Proof.
  intros HB Hf Ho Hc Hn HR Hfu Hd.
  destruct (end_loads v c syms comment b order flag HB Hf Ho Hc Hn) as (a & s & Ea & Es).
  exists a, s. split; auto. split; auto.
  destruct (file_system _ _ _ _ _ _ _ _ _ HB Hf Ho Ea Es) as (_ & _ & Hs).
  split; [|split].
  - intros T HT. apply complete_correct in HT as [HT HTt].
    apply (stateless_answers b c flag s R T fuel); auto.
  - intros SS HS. apply complete_stateful_correct in HS. apply (stateful_answers b c flag s R SS fuel); auto.
  - intros Hl Hr Hpf SS HS. apply complete_stateful_correct in HS.
    apply (pdr_answers c flag s b Hs Hn SS HS R HR fuel); auto.
Qed.

Lemma end_bmc v c syms comment b order a flag s T clk limit : Forall (fun x => x < 256) v ->
  file v c syms comment -> order_ok order -> well_numbered b c flag ->
  from_vector_of_bytes v = Ok a -> from_aig b order a flag = Ok s ->
  shipped_stateless b T -> limit < 4294967296 ->
  b = Debug \/ (limit + 1) * c_max c < 2147483647 ->
  (forall asg d, bmc_search b T clk s limit = Ok (CTX asg d) ->
     d <= limit /\ unsafe c flag /\ safe_before c flag (N.to_nat d) /\
     exists r, simulate a (ctx_inputs c asg d) (ctx_latches c asg) = Ok r /\
       length r = S (N.to_nat d) /\
       bad_in c flag (nth (N.to_nat d) r []) /\
       forall t, (t < N.to_nat d)%nat -> ~ bad_in c flag (nth t r [])) /\
  (forall z, bmc_search b T clk s limit = Ok (NoCTX z) ->
     (-1 <= z <= Z.of_N limit)%Z /\
     forall w, run c w -> forall t, (Z.of_nat t <= z)%Z -> ~ is_bad c flag (w t)).
Proof.
  intros HB Hf Ho Hn Ea Es HT Hli Hb.
  destruct (file_system _ _ _ _ _ _ _ _ _ HB Hf Ho Ea Es) as (Hr & Hfit & Hs).
  assert (M : exists m, solver_sound_below m T /\
     (b = Debug /\ m = 2147483648 \/ (limit + 1) * c_max c < m <= 2147483648)).
  { destruct Hb as [->|Hb]; [exists 2147483648; split; auto using shipped_debug|].
    exists 2147483647. split; [apply (shipped_sound b T HT)|]. right. lia. }
  destruct M as (m & HS & Hm). split.
  - intros asg d E.
    destruct (bmc_ctx_sound m b c flag s T clk limit asg d Hs Hn HS Hli Hm E) as (X & Y & Z).
    split; auto. split.
    + destruct (Z (value_of asg)) as (w & Hw & Hbad & _); [|exists w, (N.to_nat d); auto].
      intros u x Ex. unfold value_of. rewrite Ex. reflexivity.
    + split; auto. apply (bmc_ctx_replays m b c flag s T clk limit asg d a); auto.
  - intros z E. apply (bmc_noctx_sound m b c flag s T clk limit z Hs Hn HS Hli Hm E).
Qed.

(** A solver that is right within a budget is sound if it is stopped at the budget. *)
Lemma budgeted_reaches B SS st cs : reaches (budgeted B SS) st cs ->
  reaches_using SS (fst (fst st)) cs (snd (fst st)) (snd st).
Proof.
  induction 1 as [h|st cs f st' H IH Hf Hl E|st cs cube clause r st' H IH Hq Hc E].
  - constructor.
  - destruct st as [[x m] k]. cbn [budgeted ss_add_cnf ss_state fst snd] in *.
    destruct (_ <=? B); [|discriminate]. apply bind_ok in E. destruct E as (x' & E & E'). inv E'.
    cbn [fst snd]. econstructor; eauto.
  - destruct st as [[x m] k]. cbn [budgeted ss_solve ss_state fst snd] in *.
    destruct (_ <=? B); [|discriminate]. apply bind_ok in E. destruct E as ([r' x'] & E & E'). inv E'.
    cbn [fst snd] in *. econstructor; eauto.
Qed.

Lemma budgeted_sound B D SS : stateful_within B D SS -> stateful_sound (budgeted B SS).
Proof.
  intros HW st cs Hr. apply budgeted_reaches in Hr. destruct st as [[x m] k]. cbn [fst snd] in Hr.
  destruct (HW _ _ _ _ Hr) as [Ha Hs].
  split; [intros f Hf Hl|intros cube clause Hq Hc all];
    cbn [budgeted ss_add_cnf ss_solve ss_state].
  - destruct (N.leb_spec (N.max m (max_var (cnf_clauses f)) + k) B) as [L|L]; [|discriminate].
    destruct (Ha f Hf Hl L) as (x' & ->). discriminate.
  - destruct (N.leb_spec (N.max m (max_var (temp_clauses cube clause)) +
      match clause with Some _ => k + 1 | None => k end) B) as [L|L]; [|exact I].
    destruct (Hs cube clause Hq Hc L) as [(asg & x' & -> & X & _)|(x' & -> & X)]; exact X.
Qed.

Lemma budgeted_fits B SS : solver_fits False (budgeted B SS) SS (fun x y => fst (fst x) = y).
Proof.
  constructor.
  - intros h. reflexivity.
  - intros [[x m] k] y f H. cbn [fst] in H. subst y. cbn [budgeted ss_add_cnf ss_state].
    destruct (_ <=? B); [|constructor]. destruct (ss_add_cnf SS x f); cbn [bind]; constructor; auto.
  - intros [[x m] k] y q c H. cbn [fst] in H. subst y. cbn [budgeted ss_solve ss_state].
    destruct (_ <=? B); [|constructor].
    destruct (ss_solve SS x q c) as [[r x']| |]; cbn [bind fst snd]; constructor; auto.
    split; cbn [fst snd]; auto using response_same.
Qed.

(** A run that returns and does not panic when stopped at the budget. *)
Lemma fits_back {A} (x y : res A) r : fits False eq x y -> y = Ok r -> x <> Panic -> x = Ok r.
Proof. intros H E N. subst y. inversion H; subst; auto; contradiction. Qed.

Lemma end_budget v c syms comment b order a flag s R fuel E o r : Forall (fun x => x < 256) v ->
  file v c syms comment -> order_ok order -> numbering_fits c flag ->
  from_vector_of_bytes v = Ok a -> from_aig b order a flag = Ok s -> random_ok R ->
  order_ok o -> cadical_ok E ->
  let SS := cadical_stateful b E o in
  ic3_stateful b R SS fuel s = Ok r /\ ic3_stateful b R (budgeted 2147483645 SS) fuel s <> Panic \/
  pdr b R SS fuel s = Ok r /\ pdr b R (budgeted 2147483645 SS) fuel s <> Panic /\
    bad_latches_read c flag ->
  right_verdict c flag r.
Proof.
  intros HB Hf Ho Hn Ea Es HR Hoo HE SS H.
  pose proof (budgeted_sound _ _ _ (cadical_stateful_within b E o Hoo HE)) as HS. fold SS in HS.
  destruct (file_system _ _ _ _ _ _ _ _ _ HB Hf Ho Ea Es) as (_ & _ & Hs).
  destruct H as [[X Y]|(X & Y & Hl)].
  - pose proof (proj1 (stateful_link b R (budgeted 2147483645 SS) fuel s)) as L. apply stateful_plain_ok in X.
    apply (linked_back _ _ _ r L) in Y.
    2:{ apply (fits_back _ _ r (ic3_stateful_fits False b b (or_introl eq_refl) R _ _ _ fuel s
          (budgeted_fits 2147483645 SS)) X). intros E'. apply Y, (linked_panic _ _ _ L E'). }
    destruct r as [inv|d]; cbn [right_verdict].
    + destruct (sound_proof b c flag s R _ fuel inv Hs Hn HR HS Y) as (? & ? & _); auto.
    + apply (sound_ctx b c flag s R _ fuel d Hs Hn HR HS Y).
  - pose proof (proj1 (pdr_link b R (budgeted 2147483645 SS) fuel s)) as L. apply pdr_plain_ok in X.
    apply (linked_back _ _ _ r L) in Y.
    2:{ apply (fits_back _ _ r (pdr_fits False b b (or_introl eq_refl) R _ _ _ fuel s
          (budgeted_fits 2147483645 SS)) X). intros E'. apply Y, (linked_panic _ _ _ L E'). }
    destruct r as [inv|d]; cbn [right_verdict].
    + destruct (sound_pdr_proof c flag s b Hs Hn _ HS R HR fuel inv (or_intror Hl) Y) as (? & ? & _); auto.
    + apply (sound_pdr_ctx c flag s b Hs Hn _ HS R HR fuel d Hl Y).
Qed.

(** The files of the examples. *)
Lemma encoded_file c : circuit_wfb c = true -> file_fits c ->
  Forall (fun x => x < 256) (encode ex_style c) ->
  exists syms comment, file (encode ex_style c) c syms comment.
Proof.
  intros Hw Hf HB.
  destruct (parse_inverts_encode ex_style c [] None (circuit_wfb_ok c Hw) Hf (Forall_nil _) I)
    as (a & E & Hr & _).
  cbn [symbol_text comment_text map concat app] in E. rewrite app_nil_r in E.
  destruct (proj1 (accepts_exactly _ HB) (ex_intro _ a E)) as (c' & syms & comment & H).
  destruct (file_accepted _ _ _ _ HB H) as (a' & E' & Hr' & _). rewrite E in E'. inv E'.
  pose proof (represents_unique _ _ _ Hr Hr'). subst c'. eauto.
Qed.
