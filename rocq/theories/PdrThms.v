(** PDR: blocking a bad cube, the main loop, and the properties C41 - C43. *)
From Coq Require Import Permutation.
From Verif Require Import Base Formulas FormulaLogic Aig Fsts Solvers Ic3 Pdr Brute Spec SpecAig SpecFsts SpecAlg Tac Plain
  FormulasFacts LogicFacts AigFacts SimFacts AigThms FstsFacts FstsSem TagFacts FstsThms BmcThms BruteFacts
  StateFacts Ic3Core QueryFacts Ic3Thms PdrCore PdrQuery PdrSteps.
Open Scope nat_scope.

Lemma frame_eqb_eq x y : frame_eqb x y = true <-> x = y.
Proof.
  destruct x, y; cbn [frame_eqb]; try (split; [discriminate|intros [=]]); try tauto.
  rewrite Nat.eqb_eq. split; [intros ->; auto|intros [=]; auto].
Qed.
Lemma tcube_eqb_eq x y : tcube_eqb x y = true <-> x = y.
Proof.
  unfold tcube_eqb. rewrite andb_true_iff, cube_eqb_eq, frame_eqb_eq. destruct x, y; cbn.
  split; [intros (-> & ->); auto|intros [=]; auto].
Qed.

Lemma count_pos c f w : cnf_vars (is_latch c) f -> cnf_true w f -> 1 <= count c f.
Proof.
  intros V Hw. destruct (all_vals_in c w) as (w0 & Hin & Hs). unfold count.
  destruct (filter _ (all_vals c)) as [|x l] eqn:E; [|cbn [length]; lia]. exfalso.
  assert (X : In w0 []); [|elim X]. rewrite <- E. apply filter_In. split; auto.
  destruct (clauses_true_dec w0 (cnf_clauses f)) as [|Hx]; auto. elim Hx.
  eapply latch_cnf_same; [eauto| |exact Hw]. apply same_latches_sym; auto.
Qed.

Lemma total_pos c flag J D f n i w : finv c flag J D f -> 1 <= i <= n -> rf f i w -> 1 <= total c f n.
Proof.
  intros Hf Hi Hw. assert (1 <= size c f i).
  { apply (count_pos c _ w); [eapply rcnf_vars; eauto|apply rcnf_true; auto]. }
  induction n as [|n IH]; [lia|]. cbn [total]. destruct (Nat.eq_dec i (S n)) as [<-|]; [lia|].
  assert (1 <= total c f n) by (apply IH; lia). lia.
Qed.

Section Blocking.
Variables (c : circuit) (flag : bool) (s : FSTS) (b : build).
Hypothesis Hsys : system_of b c flag s.
Hypothesis Hf : numbering_fits c flag.
Hypothesis Hwf : circuit_wf c.
Hypothesis Hn : numbered c flag.
Hypothesis He : encodes c flag s.
Variable SS : StatefulSolver.
Hypothesis HS : stateful_correct SS.
Variable R : Random.
Hypothesis HR : random_ok R.
Notation St := (PdrState SS).
(** A debug build stops when a bad cube meets the initial states; without latches among the
    bad literals this cannot happen. *)
Notation J := (b = Debug \/ bad_latches_read c flag).
Notation pinv := (pinv c flag J s SS).

(** An obligation: a cube of states that lead to a bad one, not met by the frames before it. *)
Definition entry_ok (D : nat) (f : list (list Cube)) (e : TCube * nat) : Prop :=
  exists x n, e = (mkTCube x (FOk n), n) /\ n <= D /\ state_like c x /\ consistent x /\
    (bad_latches_read c flag -> forall w, cube_true w x -> leads c flag w) /\
    (n = 0 -> exists w, initial_values c w /\ cube_true w x) /\
    (bad_latches_read c flag -> 1 <= n -> forall w, rk c f (n - 1) w -> ~ cube_true w x).

Lemma entry_stronger D f f' e : stronger f f' -> entry_ok D f e -> entry_ok D f' e.
Proof.
  intros H (x & n & H1 & H2 & H3 & H4 & H5 & H6 & H7). exists x, n. split; auto. split; auto. split; auto.
  split; auto. split; auto. split; auto. intros Hl Hn1 w (Hw & Hi). apply (H7 Hl Hn1 w). split; auto.
Qed.

(** The weight of a queue. *)
Definition weight (D : nat) (q : Queue TCube) : nat := fold_right (fun e m => (D + 1 - snd e) + m) 0 q.

Lemma weight_app D q r : weight D (q ++ r) = weight D q + weight D r.
Proof. induction q as [|e q IH]; cbn; auto. unfold weight in *. rewrite IH. lia. Qed.
Lemma weight_perm D q r : Permutation q r -> weight D q = weight D r.
Proof. induction 1; cbn in *; unfold weight in *; lia. Qed.

Lemma push_same D f (q : Queue TCube) x n : Forall (entry_ok D f) q -> forall y,
  (In y (queue_push tcube_eqb q (mkTCube x (FOk n)) n) <-> In y q \/ y = (mkTCube x (FOk n), n)) /\
  weight D (queue_push tcube_eqb q (mkTCube x (FOk n)) n) <= weight D q + (D + 1 - n).
Proof.
  intros Hq y. unfold queue_push. destruct (existsb _ q) eqn:E.
  - assert (Em : map (fun e : TCube * nat => if tcube_eqb (mkTCube x (FOk n)) (fst e) then (fst e, n) else e) q = q).
    { rewrite <- (map_id q) at 2. apply map_ext_in. intros e Hin. destruct (tcube_eqb _ (fst e)) eqn:Ee; auto.
      apply tcube_eqb_eq in Ee. rewrite Forall_forall in Hq. destruct (Hq e Hin) as (x' & n' & -> & _).
      cbn [fst] in *. injection Ee as -> ->. reflexivity. }
    rewrite Em. split; [|lia]. split; auto. intros [Hy| ->]; auto.
    apply existsb_exists in E. destruct E as (e & Hin & Ee). apply tcube_eqb_eq in Ee.
    rewrite Forall_forall in Hq. destruct (Hq e Hin) as (x' & n' & -> & _). cbn [fst] in *. injection Ee as -> ->. auto.
  - rewrite weight_app. cbn. split; [|lia]. rewrite in_app_iff. simpl. intuition.
Qed.

Definition gain (D n : nat) : nat := (D + 2) * (D + 1 - n).
Definition ghost_gain (D : nat) (l : option nat) : nat := match l with None => 0 | Some n => gain D n end.
Definition big (D : nat) : nat := (D + 2) * (D + 1) + 1.

(** The smallest entry of the queue meets its own frame, and no other is as small. *)
Definition ghost_ok (D : nat) (f : list (list Cube)) (l : option nat) (q : Queue TCube) : Prop :=
  match l with
  | None => True
  | Some n => 1 <= D /\ n <= D /\ exists x, In (mkTCube x (FOk n), n) q /\ (exists w, rk c f n w /\ cube_true w x) /\
      forall e, In e q -> e = (mkTCube x (FOk n), n) \/ n < snd e
  end.

Lemma gain_le D n : gain D n < big D.
Proof.
  unfold gain, big. assert ((D + 2) * (D + 1 - n) <= (D + 2) * (D + 1)) by (apply Nat.mul_le_mono_l; lia). lia.
Qed.
Lemma gain_step D n : 1 <= n <= D -> gain D (n - 1) = gain D n + (D + 2).
Proof. intros H. unfold gain. replace (D + 1 - (n - 1)) with (S (D + 1 - n)) by lia. lia. Qed.

Definition block_post (D : nat) (f : list (list Cube)) (top : Cube) (r : bool * St) : Prop :=
  pinv D (snd r) /\ stronger f (pdr_f (snd r)) /\
  if fst r then forall w, rf (pdr_f (snd r)) D w -> ~ cube_true w top else bad_latches_read c flag -> bad_run c flag.

Lemma block_post_trans D f f' top r : stronger f f' -> block_post D f' top r -> block_post D f top r.
Proof.
  intros H (H1 & H2 & H3). split; auto. split; auto. intros i w Hw. apply H, H2, Hw.
Qed.

Lemma rec_block_loop_ok D top : forall fuel l q st, pinv D st -> Forall (entry_ok D (pdr_f st)) q ->
  ghost_ok D (pdr_f st) l q ->
  In (mkTCube top (FOk D), D) q \/ (forall w, rf (pdr_f st) D w -> ~ cube_true w top) ->
  post (rec_block_loop b R SS s fuel q st) (b = Debug /\ ~ bad_latches_read c flag)
    (fuel + ghost_gain D l <= total c (pdr_f st) D * big D + weight D q) (block_post D (pdr_f st) top).
Proof.
  induction fuel as [|fuel IH]; intros l q st Hp Hq Hg Htop.
  { cbn [rec_block_loop]. destruct q as [|e0 q0].
    - cbn. split; auto. split; [intros i w; auto|]. cbn [fst]. destruct Htop as [[]|H]; auto.
    - cbn [post]. destruct l as [n|]; cbn [ghost_gain]; [|lia].
      destruct Hg as (HD & HnD & x & _ & (w & Hw & _) & _).
      assert (1 <= total c (pdr_f st) D).
      { apply (total_pos c flag J D _ D (Nat.max n 1) w (v_frames _ _ _ _ _ _ _ Hp)); [lia|].
        apply rf_mono with n; [lia|apply Hw]. }
      pose proof (gain_le D n).
      assert (1 * big D <= total c (pdr_f st) D * big D) by (apply Nat.mul_le_mono_r; auto). lia. }
  cbn [rec_block_loop]. destruct q as [|e0 q0] eqn:Eq.
  { cbn. split; auto. split; [intros i w; auto|]. cbn [fst]. destruct Htop as [[]|H]; auto. }
  rewrite <- Eq in *. assert (Hne : q <> []) by (rewrite Eq; discriminate). clear Eq e0 q0.
  destruct (queue_pop_spec (R (pdr_draws st)) q (fun B l => HR (pdr_draws st) B l) Hne) as (e & r & Epop & Hperm & Hmin).
  rewrite Epop. cbn [unwrap bind].
  set (st0 := with_draws SS st (S (pdr_draws st))).
  assert (Hp0 : pinv D st0) by (apply pinv_draws; auto).
  assert (Ef0 : pdr_f st0 = pdr_f st) by reflexivity.
  assert (Hin : forall y, In y q <-> y = e \/ In y r).
  { intros y. split; intros Hy.
    - apply (Permutation_in _ Hperm) in Hy. destruct Hy; auto.
    - apply (Permutation_in _ (Permutation_sym Hperm)). destruct Hy as [->|Hy]; [left|right]; auto. }
  pose proof (weight_perm D _ _ Hperm) as Hwt. cbn [weight fold_right] in Hwt. fold (weight D r) in Hwt.
  rewrite Forall_forall in Hq.
  assert (Hr : Forall (entry_ok D (pdr_f st)) r) by (apply Forall_forall; intros y Hy; apply Hq, Hin; auto).
  destruct (Hq e (proj2 (Hin e) (or_introl eq_refl))) as (x & n & -> & HnD & Hlike & Hcons & Hleads & Hinit & Hprev).
  cbn [snd] in *. cbn [t_frame].
  destruct n as [|m].
  { (* an initial state leads to a bad one *)
    cbn. split; auto. split; [intros i w; auto|]. intros Hl. destruct (Hinit eq_refl) as (w & W1 & W2).
    apply (leads_run c flag w Hwf W1). auto. }
  set (n := S m) in *. assert (Hn1 : 1 <= n <= D) by (unfold n in *; lia). clearbody n. clear m.
  (* what the ghost says about the popped entry *)
  assert (Hlive : forall k, l = Some k -> k = n /\ exists w, rk c (pdr_f st) n w /\ cube_true w x).
  { intros k ->. destruct Hg as (_ & _ & y & Hy & Hw & Hall).
    destruct (Hall (mkTCube x (FOk n), n)) as [E|E]; [apply Hin; auto| |].
    - injection E as -> ->. auto.
    - cbn [snd] in E. specialize (Hmin _ Hy). cbn [snd] in Hmin. lia. }
  destruct (is_blocked_ok c flag J s He SS HS D st0 x n Hp0 Hn1) as ((bl & st1) & Eb & Hp1 & Ef1 & Hbl).
  rewrite Eb. cbn [bind fst snd] in *. rewrite Ef0 in *.
  destruct bl.
  { (* already blocked *)
    specialize (Hbl eq_refl).
    assert (l = None) as ->.
    { destruct l as [k|]; auto. destruct (Hlive k eq_refl) as (-> & w & W1 & W2). elim (Hbl w (proj1 W1) W2). }
    rewrite <- Ef1 in *.
    eapply post_impl; [apply (IH None r st1 Hp1 Hr I)|auto| |auto].
    - destruct Htop as [Ht|Ht]; auto. apply Hin in Ht. destruct Ht as [Ht|Ht]; auto. right.
      injection Ht as -> ->. auto.
    - cbn [ghost_gain]. lia. }
  assert (Hout : (b = Debug /\ ~ bad_latches_read c flag /\ debug_assert b (negb (is_cube_initial s x)) = Panic) \/
    (debug_assert b (negb (is_cube_initial s x)) = Ok tt /\ (J -> forall w, initial_values c w -> ~ cube_true w x))).
  { pose proof (cube_initial_correct b c flag s x Hsys Hcons) as Hic.
    assert (Hl : bad_latches_read c flag -> forall w, initial_values c w -> ~ cube_true w x).
    { intros Hl w W T. apply (Hprev Hl (proj1 Hn1) w); auto. apply (rk_init c flag J D _ _ w (or_intror Hl) (v_frames _ _ _ _ _ _ _ Hp)); auto. }
    destruct (is_cube_initial s x) eqn:Ei; cbn [negb].
    - assert (Hbl2 : ~ bad_latches_read c flag).
      { intros H. destruct (proj1 Hic eq_refl) as (w & W1 & W2). apply (Hl H w W1 W2). }
      assert (Hb : b = Debug \/ b = Release) by (destruct b; auto).
      destruct Hb as [Hb|Hb]; rewrite Hb; [left; auto|]. right. split; auto. intros [X|X]; [congruence|elim (Hbl2 X)].
    - right. split; [destruct b; reflexivity|]. intros _ w W T.
      assert (X : false = true) by (apply Hic; exists w; auto). discriminate. }
  cbn [t_cube]. destruct Hout as [(Hb & Hl & ->)|(-> & Hnotinit)]; [cbn; auto|]. cbn [bind].
  destruct (solve_relative_ok c flag J s b Hsys Hf Hwf Hn He SS HS D st1 x n ExtractModel Hp1 Hlike Hn1)
    as ((t & st2) & Et & Hp2 & Ef2 & _ & Hcase). cbn [fst snd] in *. rewrite Et. cbn [bind]. rewrite Ef1 in *.
  destruct Hcase as [(-> & Hind)|(Hnull & w & w' & Hst & Hw & _ & Hw' & Hpred)].
  - (* unreachable from the frame before: generalise and block *)
    cbn [is_solve_relative_un_sat t_frame frame_eqb negb].
    destruct (generalize_ok c flag J s b Hsys Hf Hwf Hn He SS HS R HR D st2 x n Hp2 Hlike Hcons Hn1)
      as ((t3 & st3) & E3 & Hp3 & Ef3 & z & Ez & Hzlike & Hzx & Hzind).
    { rewrite Ef2. split.
      - exact Hnotinit.
      - intros w w' Hst Hw Hnx. apply (Hind w w' Hst Hw). auto. }
    cbn [fst snd] in *. subst t3. rewrite E3. cbn [bind t_frame].
    rewrite (pdr_depth_ok c flag J s SS D) by auto. cbn [bind]. unfold nat_sub at 1.
    replace (1 <=? D) with true by (symmetry; apply Nat.leb_le; lia). cbn [bind].
    rewrite <- Ef3 in Hzind.
    destruct (push_forward_ok c flag J s b Hsys Hf Hwf Hn He SS HS D z Hzlike D n st3 Hp3 Hn1 ltac:(lia) Hzind)
      as ((t4 & st4) & E4 & Hp4 & Ef4 & k & Ek & Hk & Hkind).
    cbn [fst snd] in *. subst t4. rewrite E4. cbn [bind]. rewrite <- Ef4 in Hkind.
    destruct (add_blocked_ok c flag J s b Hsys Hf SS HS D st4 z k Hp4 Hzlike ltac:(lia) Hkind)
      as (st5 & E5 & Hp5 & Ha & _).
    rewrite E5. cbn [bind].
    rewrite Ef4, Ef3, Ef2 in Ha.
    pose proof (v_frames _ _ _ _ _ _ _ Hp) as Hfi. pose proof (v_frames _ _ _ _ _ _ _ Hp5) as Hfi5.
    assert (H0 : nth 0 (pdr_f st) [] = []) by (apply (nth_empty c flag J D); auto).
    assert (Hrf : forall i u, rf (pdr_f st5) i u <-> rf (pdr_f st) i u /\ (i <= k -> ~ cube_true u z)).
    { intros i u. apply added_rf; auto. }
    assert (Hstr : stronger (pdr_f st) (pdr_f st5)) by (intros i u Hu; apply Hrf in Hu; apply Hu).
    assert (Hblk : forall u, rf (pdr_f st5) n u -> ~ cube_true u x).
    { intros u Hu T. apply Hrf in Hu. apply (proj2 Hu); [lia|]. apply Hzx, T. }
    pose proof (total_mono c _ _ D Hstr) as Htot.
    assert (Htot2 : l <> None -> total c (pdr_f st5) D < total c (pdr_f st) D).
    { intros Hl. destruct l as [k0|]; [|congruence]. destruct (Hlive k0 eq_refl) as (-> & w & W1 & W2).
      apply (total_lt c flag J D _ _ D n w Hfi Hfi5 Hstr); [exact Hn1|apply W1|]. intros Hu. apply (Hblk w Hu W2). }
    assert (Hfuel : forall q', weight D q' + 1 <= weight D q ->
       fuel + ghost_gain D None <= total c (pdr_f st5) D * big D + weight D q' ->
       S fuel + ghost_gain D l <= total c (pdr_f st) D * big D + weight D q).
    { intros q' Hw1. cbn [ghost_gain]. destruct l as [k0|].
      - specialize (Htot2 ltac:(congruence)). cbn [ghost_gain]. pose proof (gain_le D k0).
        assert (S (total c (pdr_f st5) D) * big D <= total c (pdr_f st) D * big D) by (apply Nat.mul_le_mono_r; auto).
        lia.
      - cbn [ghost_gain]. assert (total c (pdr_f st5) D * big D <= total c (pdr_f st) D * big D) by (apply Nat.mul_le_mono_r; auto).
        lia. }
    assert (Hr5 : Forall (entry_ok D (pdr_f st5)) r).
    { rewrite Forall_forall in *. intros y Hy. eapply entry_stronger; eauto. }
    destruct (Nat.ltb_spec n D) as [HlD|HlD].
    + unfold tcube_next. cbn [t_frame t_cube bind]. replace (n + 1) with (S n) by lia.
      set (q' := queue_push tcube_eqb r (mkTCube x (FOk (S n))) (S n)).
      assert (Hpush : forall y, In y q' <-> In y r \/ y = (mkTCube x (FOk (S n)), S n)).
      { intros y. apply (push_same D (pdr_f st5) r x (S n) Hr5 y). }
      assert (Hwq : weight D q' <= weight D r + (D + 1 - S n)).
      { apply (push_same D (pdr_f st5) r x (S n) Hr5 (mkTCube x (FOk (S n)), S n)). }
      eapply post_impl; [apply (IH None q' st5 Hp5)|auto| |].
      * apply Forall_forall. intros y Hy. apply Hpush in Hy. rewrite Forall_forall in Hr5. destruct Hy as [Hy| ->]; auto.
        exists x, (S n). split; auto. split; [lia|]. split; auto. split; auto. split; auto. split; [lia|].
        intros _ _ u (Hu & _). replace (S n - 1) with n in Hu by lia. apply Hblk; auto.
      * exact I.
      * destruct Htop as [Ht|Ht]; [|right; intros u Hu; apply Ht, Hstr, Hu].
        apply Hin in Ht. destruct Ht as [Ht|Ht]; [injection Ht as -> ->; lia|]. left. apply Hpush. auto.
      * apply Hfuel. lia.
      * intros y. apply block_post_trans; auto.
    + eapply post_impl; [apply (IH None r st5 Hp5)|auto| |].
      * auto.
      * exact I.
      * destruct Htop as [Ht|Ht]; [|right; intros u Hu; apply Ht, Hstr, Hu].
        apply Hin in Ht. destruct Ht as [Ht|Ht]; [injection Ht as -> ->; right; auto|]. left. auto.
      * apply Hfuel. lia.
      * intros y. apply block_post_trans; auto.
  - (* a predecessor becomes a new obligation *)
    specialize (Hpred eq_refl). destruct Hpred as (Hzlike & Hwz & Hz).
    rewrite unsat_frame, Hnull. cbn [frame_eqb negb]. set (z := t_cube t) in *.
    set (q1 := queue_push tcube_eqb r (mkTCube z (FOk (n - 1))) (n - 1)).
    assert (Hpush1 : forall y, In y q1 <-> In y r \/ y = (mkTCube z (FOk (n - 1)), n - 1)).
    { intros y. apply (push_same D (pdr_f st) r z (n - 1) Hr y). }
    assert (Hwq1 : weight D q1 <= weight D r + (D + 1 - (n - 1))).
    { apply (push_same D (pdr_f st) r z (n - 1) Hr (mkTCube z (FOk (n - 1)), n - 1)). }
    assert (Hentry : entry_ok D (pdr_f st) (mkTCube z (FOk (n - 1)), n - 1)).
    { exists z, (n - 1). split; auto. split; [lia|]. split; auto. split; [exists w; auto|]. split; [|split].
      - intros Hl w2 Hw2. destruct (Hz w2 Hw2) as (w3 & S3 & T3). apply (leads_same c flag w3 w2 S3).
        eapply leads_step; [apply T3|apply T3|]. auto.
      - intros E. exists w. split; auto. apply Hw. auto.
      - intros Hl Hn2 w2 Hw2 T2. destruct (Hz w2 T2) as (w3 & S3 & T3).
        apply (Hprev Hl (proj1 Hn1) w'); auto. apply rk_rf; [lia|].
        replace (n - 1) with (S (n - 1 - 1)) by lia.
        apply (rf_step c flag J D _ (n - 1 - 1) w3 w' (v_frames _ _ _ _ _ _ _ Hp)); auto.
        apply (rk_same c flag J D _ _ w2 w3 (v_frames _ _ _ _ _ _ _ Hp)); auto. apply same_latches_sym; auto. }
    assert (Hq1 : Forall (entry_ok D (pdr_f st)) q1).
    { apply Forall_forall. intros y Hy. apply Hpush1 in Hy. rewrite Forall_forall in Hr. destruct Hy as [Hy| ->]; auto. }
    set (q2 := queue_push tcube_eqb q1 (mkTCube x (FOk n)) n).
    assert (Hpush2 : forall y, In y q2 <-> In y q1 \/ y = (mkTCube x (FOk n), n)).
    { intros y. apply (push_same D (pdr_f st) q1 x n Hq1 y). }
    assert (Hwq2 : weight D q2 <= weight D q1 + (D + 1 - n)).
    { apply (push_same D (pdr_f st) q1 x n Hq1 (mkTCube x (FOk n), n)). }
    rewrite <- Ef2 in *.
    eapply post_impl; [apply (IH (Some (n - 1)) q2 st2 Hp2)|auto| |auto].
    + apply Forall_forall. intros y Hy. apply Hpush2 in Hy. rewrite Forall_forall in Hq1. destruct Hy as [Hy| ->]; auto.
      apply Hq, Hin. auto.
    + cbn [ghost_ok]. split; [lia|]. split; [lia|]. exists z. split; [apply Hpush2; left; apply Hpush1; auto|].
      split; [exists w; auto|]. intros y Hy. apply Hpush2 in Hy.
      assert (Hcase : y = (mkTCube z (FOk (n - 1)), n - 1) \/ In y q).
      { destruct Hy as [Hy| ->]; [apply Hpush1 in Hy; destruct Hy as [Hy| ->]; auto|]; right; apply Hin; auto. }
      destruct Hcase as [->|Hy']; auto. right. specialize (Hmin y Hy'). lia.
    + destruct Htop as [Ht|Ht]; auto. left. apply Hpush2. apply Hin in Ht. destruct Ht as [Ht|Ht]; auto.
      left. apply Hpush1. auto.
    + cbn [ghost_gain]. rewrite gain_step by lia.
      assert (ghost_gain D l <= gain D n).
      { destruct l as [k0|]; cbn [ghost_gain]; [|lia]. destruct (Hlive k0 eq_refl) as (-> & _). lia. }
      lia.
Qed.

End Blocking.

(* -------------------------------------------------------------------- main loop *)

Section Main.
Variables (c : circuit) (flag : bool) (s : FSTS) (b : build).
Hypothesis Hsys : system_of b c flag s.
Hypothesis Hf : numbering_fits c flag.
Hypothesis Hwf : circuit_wf c.
Hypothesis Hn : numbered c flag.
Hypothesis He : encodes c flag s.
Variable SS : StatefulSolver.
Hypothesis HS : stateful_correct SS.
Variable R : Random.
Hypothesis HR : random_ok R.
(** A debug build stops when a bad cube meets the initial states; without latches among the
    bad literals this cannot happen. *)
Notation J := (b = Debug \/ bad_latches_read c flag).
Notation pinv := (pinv c flag J s SS).

Definition pdr_result_ok (r : ProofResult) : Prop :=
  match r with
  | Proof inv => api_cnf inv /\ cnf_vars (is_latch c) inv /\ (J -> inductive_safe c flag (fun w => cnf_true w inv))
  | ProofCTX d => (bad_latches_read c flag -> bad_run c flag) /\ (J -> safe_before c flag (N.to_nat d)) /\
      (bad_latches_read c flag -> d = 0%N -> shortest c flag 0)
  end.

(** When PDR panics. *)
Definition pdr_panic : Prop :=
  (b = Debug /\ ~ bad_latches_read c flag) \/ (J -> ~ states_readable c flag) \/ (bad_latches_read c flag -> overlong c flag).

Lemma rec_block_cube_ok D inner z st : pinv D st -> state_like c z ->
  (exists w, rk c (pdr_f st) D w /\ cube_true w z) ->
  (bad_latches_read c flag -> forall w, cube_true w z -> bad_state c flag w) ->
  post (rec_block_cube b R SS s inner (mkTCube z (FOk D)) st) (b = Debug /\ ~ bad_latches_read c flag)
    (inner <= total c (pdr_f st) D * big D + 1) (block_post c flag s b SS D (pdr_f st) z).
Proof.
  intros Hp Hz (w & Hw & Tw) Hb. unfold rec_block_cube. cbn [t_frame].
  pose proof (v_frames _ _ _ _ _ _ _ Hp) as Hfi.
  eapply post_impl; [apply (rec_block_loop_ok c flag s b Hsys Hf Hwf Hn He SS HS R HR D z inner None _ st Hp)| | |].
  - unfold queue_push. cbn [existsb app]. constructor; [|constructor].
    exists z, D. split; auto. split; auto. split; auto. split; [exists w; auto|]. split; [|split].
    + intros Hl u Hu. apply bad_leads. auto.
    + intros ->. exists w. split; auto. apply Hw. reflexivity.
    + intros Hl HD u Hu Tu. destruct (Hb Hl u Tu) as (u' & U1 & U2 & U3).
      apply (f_safe _ _ _ _ _ Hfi (D - 1) u' ltac:(lia) U1); auto.
      apply (rk_same c flag J D _ _ u u' Hfi); auto. apply same_latches_sym; auto.
  - exact I.
  - left. unfold queue_push. cbn [existsb app]. left. reflexivity.
  - auto.
  - cbn. lia.
  - auto.
Qed.

Lemma pdr_loop_ok inner : forall outer D st, pinv D st -> D <= states c + 1 ->
  post (pdr_loop b R SS s inner outer st) pdr_panic
    (outer <= (states c + 2 - D) * (states c + 1) + size c (pdr_f st) D \/
     inner <= (states c + 1) * states c * big (states c + 1) + 1)
    (fun r => pdr_result_ok (fst r)).
Proof.
  set (N := states c).
  induction outer as [|outer IH]; intros D st Hp HD; [cbn [pdr_loop post]; left; apply Nat.le_0_l|]. cbn [pdr_loop].
  eapply post_bind; [eapply post_impl; [apply (get_bad_ok c flag J s b Hsys Hwf Hn He SS HS D st Hp)| | |]|].
  - intros H. right. left. exact H.
  - tauto.
  - intros r H. exact H.
  - intros (o & st1) (Hp1 & Ef1 & Ho). cbn [fst snd] in *.
    destruct o as [z|].
    + destruct Ho as (Hz & Hwit & Hbad). rewrite (pdr_depth_ok c flag J s SS D) by auto. cbn [bind].
      rewrite <- Ef1 in *.
      eapply post_bind; [eapply post_impl; [apply (rec_block_cube_ok D inner z st1 Hp1 Hz Hwit Hbad)| | |]|].
      * intros H. left. exact H.
      * intros Hin. right. pose proof (total_bound c (pdr_f st1) D) as Ht. fold N in Ht.
        assert (total c (pdr_f st1) D * big D <= (N + 1) * N * big (N + 1)).
        { apply Nat.mul_le_mono.
          - etransitivity; [apply Ht|]. apply Nat.mul_le_mono_r. auto.
          - unfold big. apply Nat.add_le_mono_r. apply Nat.mul_le_mono; lia. }
        lia.
      * intros r H. exact H.
      * intros (bl & st2) (Hp2 & Hstr & Hbl). cbn [fst snd] in *. destruct bl.
        -- eapply post_impl; [apply (IH D st2 Hp2 HD)|auto| |auto].
           intros [H|H]; [left|right; auto].
           destruct Hwit as (w & W1 & W2).
           pose proof (size_lt c flag J D D (pdr_f st1) (pdr_f st2) D D w (v_frames _ _ _ _ _ _ _ Hp1) (v_frames _ _ _ _ _ _ _ Hp2)) as Hlt.
           assert (size c (pdr_f st2) D < size c (pdr_f st1) D); [|lia].
           apply Hlt; [intros u Hu; apply Hstr; auto|apply W1|]. intros Hu. apply (Hbl w Hu W2).
        -- rewrite (pdr_depth_ok c flag J s SS D) by auto. cbn [bind].
           assert (Hsb : J -> safe_before c flag D) by (intros HJ; apply (frames_safe c flag J D _ HJ (v_frames _ _ _ _ _ _ _ Hp2))).
           unfold depth_of_frame. destruct (N.ltb_spec (N.of_nat D) u32_mod) as [Hlt|Hge]; cbn [assert_].
           ++ cbn [bind post fst pdr_result_ok]. split; auto. rewrite Nat2N.id. split; auto.
              intros Hl E0. assert (D = 0) by lia. subst D. split; [intros u Hu t Ht; lia|].
              destruct Hwit as (w & W1 & W2). destruct (Hbad Hl w W2) as (w' & V1 & V2 & V3).
              apply (bad_at_0 c flag Hwf w'); auto.
              apply (initial_same c w w'); [apply same_latches_sym; auto|apply W1; reflexivity].
           ++ cbn [bind post]. right. right. intros Hl. split; [|split].
              ** destruct (N.lt_ge_cases (lenN (c_latches c)) 32) as [H32|H32]; auto.
                 pose proof (states_small c H32) as Hss. fold N in Hss. unfold u32_mod in Hge. lia.
              ** apply Hbl; auto.
              ** exists D. split; auto.
    + rewrite <- Ef1 in Ho.
      eapply bind_okay; [apply (new_frame_ok c flag J s b Hsys Hwf Hn He SS HS D st1 Hp1 Ho)|].
      intros st2 (Hp2 & Ef2 & _).
      unfold propagate_blocked_cubes. rewrite (pdr_depth_ok c flag J s SS (S D)) by auto. cbn [bind].
      replace (S D - 1) with D by lia.
      eapply bind_okay; [apply (propagate_frames_ok c flag J s b Hsys Hf Hwf Hn He SS HS (S D) D 1 st2 Hp2); [lia|lia|intros j Hj; lia]|].
      intros (o & st3) (Hp3 & _ & Hres). cbn [fst snd] in *.
      pose proof (v_frames _ _ _ _ _ _ _ Hp3) as Hfi.
      destruct o as [k|].
      * destruct Hres as (Hk & Ek). unfold get_r_i. rewrite (indexn_nth _ _ []) by (rewrite (f_len _ _ _ _ _ Hfi); lia).
        cbn [bind]. rewrite (nth_empty c flag J (S D) _ 0 Hfi) by auto. cbn [assert_ bind].
        replace (k =? 0) with false by (symmetry; apply Nat.eqb_neq; lia).
        fold (rcnf (pdr_f st3) k). cbn [post fst pdr_result_ok]. split; [apply rcnf_api|].
        split; [apply (rcnf_vars c flag J (S D)); auto|]. intros HJ. split; [|split].
        -- intros w Hw Hi. apply rcnf_true. apply (rf_init c flag J (S D)); auto.
        -- intros w w' Hw Hw' Hst Hi. apply rcnf_true. apply rcnf_true in Hi.
           apply (empty_frame_inductive c flag J (S D) _ k Hfi Hk Ek w w'); auto. split; auto.
        -- intros w Hw Hi. apply rcnf_true in Hi. apply (f_safe _ _ _ _ _ Hfi k w); [lia|auto|]. apply rk_rf; auto. lia.
      * assert (Hsz : S D <= S (size c (pdr_f st3) (S D))) by (apply (grows_size c flag J (S D)); auto; lia).
        assert (Hle : size c (pdr_f st3) (S D) <= N) by apply size_le.
        eapply post_impl; [apply (IH (S D) st3 Hp3)|auto| |auto].
        -- fold N. lia.
        -- intros [H|H]; [left|right; auto].
           replace (N + 2 - D) with (S (N + 2 - S D)) by lia. cbn [Nat.mul]. lia.
Qed.
End Main.

Lemma inductive_is_safe c flag (P : valuation -> Prop) : inductive_safe c flag P -> safe c flag.
Proof.
  intros (H1 & H2 & H3) w (Hw & H0 & Hst).
  assert (G : forall t, P (w t)); [|intros t; apply H3; auto].
  induction t as [|t IH]; [auto|]. apply (H2 (w t) (w (S t))); auto.
Qed.

Section Result.
Variables (c : circuit) (flag : bool) (s : FSTS) (b : build).
Hypothesis Hsys : system_of b c flag s.
Hypothesis Hf : numbering_fits c flag.
Variable SS : StatefulSolver.
Hypothesis HS : stateful_correct SS.
Variable R : Random.
Hypothesis HR : random_ok R.

Lemma pdr_post fuel :
  post (pdr_plain b R SS fuel s) (pdr_panic c flag b) (fuel <= (states c + 3) ^ 4) (pdr_result_ok c flag b).
Proof.
  destruct (system_encodes _ _ _ _ Hsys (or_intror Hf)) as (Hwf & Hn & He).
  enough (H : post (pdr_prove b R SS s fuel (pdr_new SS)) (pdr_panic c flag b) (fuel <= (states c + 3) ^ 4)
    (fun r => pdr_result_ok c flag b (fst r))).
  { unfold pdr_plain. eapply post_bind; [exact H|]. intros (r & st) Hr. exact Hr. }
  unfold pdr_prove. cbn [pdr_new pdr_f app].
  eapply bind_okay; [apply (first_frame_ok c flag (b = Debug \/ bad_latches_read c flag) s b Hsys Hwf Hn He SS HS)|]. intros st (Hp & Ef).
  eapply post_impl; [apply (pdr_loop_ok c flag s b Hsys Hf Hwf Hn He SS HS R HR fuel fuel 0 st Hp); lia|auto| |auto].
  pose proof (size_le c (pdr_f st) 0) as Hsz. set (N := states c) in *. rewrite Nat.sub_0_r.
  assert (E : (N + 3) ^ 4 = (N + 3) * (N + 3) * ((N + 3) * (N + 3))) by (cbn [Nat.pow]; ring). rewrite E. clear E.
  intros [H|H].
  - assert (1 * ((N + 3) * (N + 3)) <= (N + 3) * (N + 3) * ((N + 3) * (N + 3))) by (apply Nat.mul_le_mono_r; lia). lia.
  - unfold big in H. assert (((N + 1) * N + 1) * ((N + 1 + 2) * (N + 1 + 1) + 1) <= (N + 3) * (N + 3) * ((N + 3) * (N + 3)))
      by (apply Nat.mul_le_mono; lia). lia.
Qed.

Lemma pdr_proof fuel inv : b = Debug \/ bad_latches_read c flag -> pdr_plain b R SS fuel s = Ok (Proof inv) ->
  safe c flag /\ inductive_safe c flag (fun w => cnf_true w inv) /\
  forall b' T1 T2 T3 o1 o2,
    solver_correct_below 2147483647 T1 -> solver_correct_below 2147483647 T2 ->
    solver_correct_below 2147483647 T3 -> order_ok o1 -> order_ok o2 ->
    check_invariant b' T1 T2 T3 o1 o2 s inv = Ok tt.
Proof.
  intros Hok E. pose proof (pdr_post fuel) as H. rewrite E in H. cbn in H. destruct H as (H1 & H2 & H3). specialize (H3 Hok).
  split; [apply (inductive_is_safe c flag _ H3)|]. split; auto.
  intros b' T1 T2 T3 o1 o2 HT1 HT2 HT3 Ho1 Ho2.
  apply (check_invariant_complete b b' c flag); auto.
Qed.

Lemma pdr_ctx fuel d : bad_latches_read c flag -> pdr_plain b R SS fuel s = Ok (ProofCTX d) ->
  unsafe c flag /\ safe_before c flag (N.to_nat d).
Proof.
  intros Hl E. pose proof (pdr_post fuel) as H. rewrite E in H. cbn in H. destruct H as (H1 & H2 & _).
  split; auto. destruct (H1 Hl) as (w & t & W1 & W2). exists w, t. auto.
Qed.

Lemma pdr_ctx_depth fuel d : b = Debug \/ bad_latches_read c flag -> pdr_plain b R SS fuel s = Ok (ProofCTX d) ->
  safe_before c flag (N.to_nat d).
Proof. intros Hl E. pose proof (pdr_post fuel) as H. rewrite E in H. apply H. auto. Qed.

Lemma pdr_depth_shortest fuel d n : bad_latches_read c flag -> shortest c flag n ->
  pdr_plain b R SS fuel s = Ok (ProofCTX d) ->
  (n <= 1 -> d = N.of_nat n) /\ (1 < n -> (1 <= d <= N.of_nat n)%N).
Proof.
  intros Hl (Hn & w & Hr & Hw) E. pose proof (pdr_post fuel) as H. rewrite E in H. cbn in H.
  destruct H as (_ & Hd & H0). specialize (Hd (or_intror Hl)). specialize (H0 Hl).
  assert (Hle : N.to_nat d <= n).
  { destruct (Nat.le_gt_cases (N.to_nat d) n) as [|X]; auto. elim (Hd w Hr n X Hw). }
  assert (Hz : d = 0%N -> n = 0).
  { intros X. destruct (H0 X) as (_ & w' & Hr' & Hw'). destruct n as [|n]; auto.
    elim (Hn w' Hr' 0); auto; lia. }
  split; intros Hx.
  - destruct (N.eq_dec d 0) as [X|X]; [rewrite (Hz X); exact X|lia].
  - split; [|lia]. destruct (N.eq_dec d 0) as [X|X]; [specialize (Hz X)|]; lia.
Qed.

Lemma pdr_stops fuel : enough_pdr_fuel c fuel -> pdr_plain b R SS fuel s <> OutOfFuel.
Proof.
  intros Hfu E. pose proof (pdr_post fuel) as H. rewrite E in H. cbn [post] in H.
  unfold enough_pdr_fuel in Hfu. unfold states in H. lia.
Qed.

Lemma pdr_total fuel : bad_latches_read c flag -> states_readable c flag -> enough_pdr_fuel c fuel -> depth_fits c flag ->
  exists r, pdr_plain b R SS fuel s = Ok r /\ (verdict_proof r <-> safe c flag).
Proof.
  intros Hl Hg Hfu Hd. destruct (pdr_plain b R SS fuel s) as [r| |] eqn:E.
  - exists r. split; auto. destruct r as [inv|d].
    + split; [intros _; apply (pdr_proof fuel inv (or_intror Hl) E)|intros _; exists inv; auto].
    + split; [intros (inv & X); discriminate|]. intros Hs. destruct (pdr_ctx fuel d Hl E) as ((w & t & W1 & W2) & _).
      elim (Hs w W1 t W2).
  - exfalso. pose proof (pdr_post fuel) as H. rewrite E in H. cbn [post] in H.
    destruct H as [(_ & H)|[H|H]]; auto; [apply H; auto|].
    destruct (system_encodes _ _ _ _ Hsys (or_intror Hf)) as (Hwf & _).
    elim (depth_not_overlong c flag Hwf Hd (H Hl)).
  - elim (pdr_stops fuel Hfu E).
Qed.
End Result.
