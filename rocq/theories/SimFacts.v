(** Cone of influence and simulation. *)
From Verif Require Import Base Aig Spec SpecAig Tac AigFacts.
Open Scope N_scope.

Lemma shiftr_var l : N.shiftr l 1 = lit_var l.
Proof. unfold lit_var. rewrite N.shiftr_div_pow2. reflexivity. Qed.

Lemma shiftr_double v : N.shiftr (2 * v) 1 = v.
Proof. rewrite shiftr_var. unfold lit_var. lia. Qed.

Lemma odd_mod2 l : N.odd l = (l mod 2 =? 1).
Proof. rewrite <- N.bit0_mod, N.bit0_odd. destruct (N.odd l); reflexivity. Qed.

Lemma even_mod2 l : (l mod 2 =? 0) = negb (N.odd l).
Proof. rewrite odd_mod2. lia. Qed.

Lemma lit_value_even w v : lit_value w (2 * v) = w v.
Proof.
  unfold lit_value, lit_neg, lit_var. rewrite odd_mod2.
  replace (2 * v / 2) with v by lia. replace (2 * v mod 2 =? 1) with false by lia.
  apply xorb_false_r.
Qed.

(* ------------------------------------------------------------------------ cone *)

Definition gate_infos (c : circuit) : list (N * N * N) :=
  map (fun e => (2 * gate_var c (fst e), fst (snd e), snd (snd e)))
    (combine (seq 0 (length (c_ands c))) (c_ands c)).

Lemma gate_infos_length c : length (gate_infos c) = length (c_ands c).
Proof. unfold gate_infos. rewrite map_length, combine_length, seq_length. lia. Qed.

Lemma gate_infos_nth c j n r : nth_error (c_ands c) j = Some (n, r) ->
  nth_error (gate_infos c) j = Some (2 * gate_var c j, n, r).
Proof.
  intros H. unfold gate_infos. rewrite nth_error_map.
  rewrite (nth_error_combine _ _ j j (n, r)); auto.
  rewrite nth_error_seq; auto. eapply nth_error_some_lt; eauto.
Qed.

Lemma in_gate_infos c x : In x (gate_infos c) <->
  exists v n r, gate c v n r /\ x = (2 * v, n, r).
Proof.
  split.
  - intros H. apply In_nth_error in H. destruct H as (j & H).
    pose proof (nth_error_some_lt _ _ _ H) as Hl. rewrite gate_infos_length in Hl.
    destruct (nth_error_lt _ _ Hl) as ((n, r) & E).
    rewrite (gate_infos_nth _ _ _ _ E) in H. inv H.
    exists (gate_var c j), n, r. split; auto. exists j; auto.
  - intros (v & n & r & (j & E & ->) & ->). eapply nth_error_In. apply gate_infos_nth; eauto.
Qed.

Lemma gate_eqb_spec x y : gate_eqb x y = true <-> x = y.
Proof.
  destruct x as ((a, b), d), y as ((a', b'), d'). unfold gate_eqb.
  rewrite !andb_true_iff, !N.eqb_eq. split; [intros ((-> & ->) & ->); auto|intros H; inv H; auto].
Qed.

Lemma gate_mem x l : set_mem gate_eqb x l = true <-> In x l.
Proof.
  unfold set_mem. rewrite existsb_exists. split.
  - intros (y & Hy & E). apply gate_eqb_spec in E. subst; auto.
  - intros H. exists x. split; auto. apply gate_eqb_spec; auto.
Qed.

Lemma nodup_snoc {A} (l : list A) x : NoDup l -> ~ In x l -> NoDup (l ++ [x]).
Proof.
  intros H Hx. eapply Permutation_NoDup; [apply Permutation_cons_append|]. constructor; auto.
Qed.

(** What the worklist knows. *)
Record cone_inv (c : circuit) (desired pending : list N) (gates : list (N * N * N)) : Prop := {
  ci_nodup : NoDup gates;
  ci_sound : forall g, In g gates ->
    exists v r0 r1, g = (2 * v, r0, r1) /\ gate c v r0 r1 /\ fan_in c desired v;
  ci_pending : forall l, In l pending -> lit_in_range c l /\
    (is_gate c (lit_var l) -> fan_in c desired (lit_var l));
  ci_roots : forall l, In l desired -> is_gate c (lit_var l) ->
    In l pending \/ exists r0 r1, In (2 * lit_var l, r0, r1) gates;
  ci_closed : forall v r0 r1 l, In (2 * v, r0, r1) gates -> l = r0 \/ l = r1 ->
    is_gate c (lit_var l) -> In l pending \/ exists r0 r1, In (2 * lit_var l, r0, r1) gates
}.

Lemma cone_inv_gates_len c desired pending gates :
  cone_inv c desired pending gates -> (length gates <= length (c_ands c))%nat.
Proof.
  intros H. rewrite <- gate_infos_length. apply NoDup_incl_length. { apply H. }
  intros g Hg. destruct (ci_sound _ _ _ _ H g Hg) as (v & r0 & r1 & -> & G & _).
  apply in_gate_infos. exists v, r0, r1; auto.
Qed.

Lemma cone_loop_ok a c desired : represents a c -> circuit_wf c -> circuit_fits c ->
  forall fuel pending gates,
  cone_inv c desired pending gates ->
  (length pending + 2 * (length (c_ands c) - length gates) <= fuel)%nat ->
  exists gs, cone_loop fuel a pending gates = Ok gs /\ cone_inv c desired [] gs.
Proof.
  intros Hr Hwf Hf. induction fuel as [|fuel IH]; intros pending gates HI Hm.
  - destruct pending; simpl in Hm; [|lia]. exists gates. split; auto.
  - destruct pending as [|l rest]. { exists gates. split; auto. }
    cbn [cone_loop]. rewrite shiftr_var.
    destruct (ci_pending _ _ _ _ HI l) as (Hrange & Hfan); [left; auto|].
    destruct (node_at a c (lit_var l) Hr Hrange) as (n & En & Hn).
    rewrite En. cbn [bind].
    assert (Hskip : ~ is_gate c (lit_var l) -> node_type n <> And /\
                    cone_inv c desired rest gates).
    { intros Hng. split.
      - destruct Hn as (_ & [(_ & ->)|[(_ & ->)|[(? & ? & _ & -> & _)|(r0 & r1 & G & _)]]]);
          try discriminate. exfalso; apply Hng; exists r0, r1; auto.
      - destruct HI as [I1 I2 I3 I4 I5]. split; auto.
        + intros l' Hl'. apply I3. right; auto.
        + intros l' Hl' Hg'. destruct (I4 _ Hl' Hg') as [[->|]|]; auto. contradiction.
        + intros v r0 r1 l' Hin Hop Hg'. destruct (I5 _ _ _ _ Hin Hop Hg') as [[->|]|]; auto.
          contradiction. }
    destruct (classify c (lit_var l) Hrange) as [H0|[Hi|[Hla|Hg]]].
    4:{ destruct Hg as (r0 & r1 & G).
        destruct (gate_node a c _ r0 r1 Hr Hwf Hf G) as (n' & En' & El & Et & E0 & E1).
        rewrite En in En'. inv En'. rewrite Et. cbn [bind]. rewrite E0. cbn [bind].
        rewrite E1. cbn [bind]. rewrite El.
        assert (Fl : fan_in c desired (lit_var l)). { apply Hfan. exists r0, r1; auto. }
        destruct (set_mem gate_eqb _ gates) eqn:Em.
        - apply gate_mem in Em. apply IH; [|simpl in Hm; lia].
          destruct HI as [I1 I2 I3 I4 I5]. split; auto.
          + intros l' Hl'. apply I3. right; auto.
          + intros l' Hl' Hg'. destruct (I4 _ Hl' Hg') as [[->|]|]; eauto.
          + intros v s0 s1 l' Hin Hop Hg'. destruct (I5 _ _ _ _ Hin Hop Hg') as [[->|]|]; eauto.
        - assert (Hnew : ~ In (2 * lit_var l, r0, r1) gates).
          { intros X. apply gate_mem in X. congruence. }
          assert (HI' : cone_inv c desired (rest ++ [r0; r1]) (gates ++ [(2 * lit_var l, r0, r1)])).
          { pose proof (gate_operands _ _ _ _ Hwf G) as (O0 & O1).
            pose proof (gate_range _ _ _ _ G) as R.
            destruct HI as [I1 I2 I3 I4 I5]. split.
            - apply nodup_snoc; auto.
            - intros g Hg. apply in_app_iff in Hg. destruct Hg as [Hg|[<-|[]]]; auto.
              exists (lit_var l), r0, r1. auto.
            - intros l' Hl'. apply in_app_iff in Hl'. destruct Hl' as [Hl'|Hl'].
              + apply I3. right; auto.
              + assert (Hop : l' = r0 \/ l' = r1) by (simpl in Hl'; intuition).
                split.
                * unfold lit_in_range. destruct Hop; subst; lia.
                * intros Hg. eapply fan_in_step; eauto.
            - intros l' Hl' Hg'. destruct (I4 _ Hl' Hg') as [[->|X]|(s0 & s1 & X)].
              + right. exists r0, r1. apply in_app_iff; right; left; auto.
              + left. apply in_app_iff; auto.
              + right. exists s0, s1. apply in_app_iff; auto.
            - intros v s0 s1 l' Hin Hop Hg'. apply in_app_iff in Hin.
              destruct Hin as [Hin|[Hin|[]]].
              + destruct (I5 _ _ _ _ Hin Hop Hg') as [[->|X]|(t0 & t1 & X)].
                * right. exists r0, r1. apply in_app_iff; right; left; auto.
                * left. apply in_app_iff; auto.
                * right. exists t0, t1. apply in_app_iff; auto.
              + inv Hin. left. apply in_app_iff. right. simpl. intuition. }
          apply IH; auto. apply cone_inv_gates_len in HI'.
          rewrite !app_length in *. simpl in *. lia. }
    all: destruct Hskip as (Ht & HI');
      [ rewrite is_gate_iff; try rewrite is_latch_iff in *; unfold is_input in *; lia |];
      destruct (node_type n); try (contradiction Ht; reflexivity);
      apply IH; auto; simpl in Hm; lia.
Qed.

Lemma cone_ok a c order desired : represents a c -> circuit_wf c -> circuit_fits c ->
  order_ok order -> Forall (lit_in_range c) desired ->
  exists gs, cone_of_influence order a desired = Ok gs /\ NoDup gs /\
    forall lhs r0 r1, In (lhs, r0, r1) gs <->
      exists v, lhs = 2 * v /\ gate c v r0 r1 /\ fan_in c desired v.
Proof.
  intros Hr Hwf Hf Ho Hd. unfold cone_of_influence.
  destruct (cone_loop_ok a c desired Hr Hwf Hf (length desired + 2 * length (nodes a))
              desired []) as (gs & E & HI).
  - split; simpl; try tauto.
    + constructor.
    + intros l Hl. split. { rewrite Forall_forall in Hd; auto. }
      intros. constructor; auto.
  - simpl. assert (lenN (nodes a) = c_max c + 1) by (unfold represents in Hr; tauto).
    unfold c_max, lenN in *. lia.
  - rewrite E. cbn [bind]. exists (order gs). split; auto. split.
    { eapply Permutation_NoDup; [symmetry; apply Ho|apply HI]. }
    assert (Hcl : forall v, fan_in c desired v -> exists r0 r1, In (2 * v, r0, r1) gs).
    { intros v F. induction F as [l Hl Hg|v r0 r1 r F IH G Hop Hg].
      - destruct (ci_roots _ _ _ _ HI _ Hl Hg) as [[]|]; auto.
      - destruct IH as (s0 & s1 & Hin).
        destruct (ci_sound _ _ _ _ HI _ Hin) as (v' & t0 & t1 & Eq & G' & _).
        assert (v = v') by (inv Eq; lia). subst v'. inv Eq.
        destruct (gate_fun _ _ _ _ _ _ G G'); subst.
        destruct (ci_closed _ _ _ _ HI _ _ _ r Hin Hop Hg) as [[]|]; auto. }
    intros lhs r0 r1. split.
    + intros H. apply (Permutation_in _ (Ho gs)) in H.
      destruct (ci_sound _ _ _ _ HI _ H) as (v & s0 & s1 & Eq & G & F). inv Eq. exists v; auto.
    + intros (v & -> & G & F). apply (Permutation_in _ (Permutation_sym (Ho gs))).
      destruct (Hcl v F) as (s0 & s1 & Hin).
      destruct (ci_sound _ _ _ _ HI _ Hin) as (v' & t0 & t1 & Eq & G' & _).
      assert (v = v') by (inv Eq; lia). subst v'. inv Eq.
      destruct (gate_fun _ _ _ _ _ _ G G'); subst. auto.
Qed.

(* ------------------------------------------------------------------- simulation *)

Lemma foldM_total {A S} (f : S -> A -> res S) (P : list A -> S -> Prop) l s :
  P [] s ->
  (forall pre x suf s, l = pre ++ x :: suf -> P pre s ->
     exists s', f s x = Ok s' /\ P (pre ++ [x]) s') ->
  exists r, foldM f l s = Ok r /\ P l r.
Proof.
  intros H0 Hstep.
  assert (G : forall suf pre s, l = pre ++ suf -> P pre s ->
                exists r, foldM f suf s = Ok r /\ P l r).
  { induction suf as [|x suf IH]; simpl; intros pre s1 El HP.
    - exists s1. rewrite app_nil_r in El. subst; auto.
    - destruct (Hstep pre x suf s1 El HP) as (s' & E & HP'). rewrite E. simpl.
      apply (IH (pre ++ [x])); auto. rewrite <- app_assoc; auto. }
  apply (G l []); auto.
Qed.

Lemma foldM_ok_in {A S} (f : S -> A -> res S) l s r x :
  foldM f l s = Ok r -> In x l -> exists s1 s2, f s1 x = Ok s2.
Proof.
  revert s; induction l as [|y l IH]; simpl; intros s H []; binds; subst; eauto.
Qed.

Definition vals (w : valuation) (n : nat) : list bool := map (fun i => w (N.of_nat i)) (seq 0 n).

Lemma vals_length w n : length (vals w n) = n.
Proof. unfold vals. rewrite map_length, seq_length; auto. Qed.

Lemma vals_S w n : vals w (S n) = vals w n ++ [w (N.of_nat n)].
Proof. unfold vals. rewrite seq_S, map_app. reflexivity. Qed.

Lemma vals_index w n v : (N.to_nat v < n)%nat -> index (vals w n) v = Ok (w v).
Proof.
  intros H. apply index_ok. unfold vals. rewrite nth_error_map, nth_error_seq by lia.
  simpl. rewrite N2Nat.id. auto.
Qed.

Lemma vals_ext w w' n : (forall i, (i < n)%nat -> w (N.of_nat i) = w' (N.of_nat i)) ->
  vals w n = vals w' n.
Proof. intros H. unfold vals. apply map_ext_in. intros i Hi. apply in_seq in Hi. apply H. lia. Qed.

Lemma sim_lit_ok w n l : (N.to_nat (lit_var l) < n)%nat -> sim_lit (vals w n) l = Ok (lit_value w l).
Proof.
  intros H. unfold sim_lit. rewrite shiftr_var, vals_index by auto. cbn [bind].
  rewrite even_mod2. unfold lit_value, lit_neg. destruct (N.odd l); simpl.
  - rewrite xorb_true_r; auto.
  - rewrite xorb_false_r; auto.
Qed.

Lemma map_get_in m k x : NoDup (keys m) -> (map_get m k = Some x <-> In (k, x) m).
Proof.
  induction m as [|(k', y) m IH]; simpl; intros Hn.
  - split; [discriminate|tauto].
  - inv Hn. destruct (k =? k') eqn:E.
    + apply N.eqb_eq in E. subst k'. split.
      * intros H; inv H; auto.
      * intros [H|H]; [inv H; auto|]. exfalso; apply H1. unfold keys. apply in_map_iff.
        exists (k, x); auto.
    + apply N.eqb_neq in E. rewrite IH by auto. split; auto. intros [H|H]; auto. inv H; congruence.
Qed.

Lemma map_contains_in m k : map_contains m k = true <-> In k (keys m).
Proof.
  unfold map_contains. induction m as [|(k', y) m IH]; simpl; [split; [discriminate|tauto]|].
  destruct (k =? k') eqn:E.
  - apply N.eqb_eq in E. subst. split; auto.
  - apply N.eqb_neq in E. rewrite IH. intuition congruence.
Qed.

Section Sim.
Variables (a : AIG) (c : circuit).
Hypotheses (Hr : represents a c) (Hwf : circuit_wf c) (Hf : circuit_fits c).

Let size := N.to_nat (c_max c + 1).

Lemma nodes_len : length (nodes a) = size.
Proof. unfold represents in Hr. unfold size, lenN in *. lia. Qed.

Lemma node_split pre x suf : nodes a = pre ++ x :: suf ->
  node_is c (lenN pre) x /\ lenN pre <= c_max c.
Proof.
  intros H. assert (E : nth_error (nodes a) (length pre) = Some x).
  { rewrite H, nth_error_app2, Nat.sub_diag by lia. reflexivity. }
  pose proof (nth_error_some_lt _ _ _ E) as Hl. rewrite nodes_len in Hl. unfold size in Hl.
  split; [|unfold lenN; lia]. apply Hr in E. exact E.
Qed.

Lemma and_result_ok src v n r0 r1 : gate c v r0 r1 -> node_is c v n ->
  get_and_result n (vals (ev c src) (N.to_nat v)) = Ok (ev c src v).
Proof.
  intros G Hn. pose proof (gate_operands _ _ _ _ Hwf G) as (O0 & O1).
  destruct (node_is_gate _ _ _ _ _ Hn G) as (_ & Et & E0 & E1).
  destruct (gate_wf _ _ _ _ Hwf Hf G) as (B0 & B1).
  unfold get_and_result, get_and_rhs0, get_and_rhs1. rewrite Et, E0, E1.
  cbn [node_type_eqb assert_ bind].
  destruct (r0 =? usize_max) eqn:X1; [unfold usize_max in *; lia|].
  destruct (r1 =? usize_max) eqn:X2; [unfold usize_max in *; lia|].
  cbn [negb assert_ bind]. rewrite !sim_lit_ok by lia. cbn [bind].
  rewrite (ev_gate _ _ _ _ _ Hwf G). reflexivity.
Qed.

(** Next states are computed right. *)
Lemma next_state_ok last m src :
  (forall v, is_input c v -> map_get m v = Some (src v)) ->
  (forall v nx r, latch c v nx r -> src v = lit_value last nx) ->
  get_next_simulation_state a (vals last size) m = Ok (vals (ev c src) size).
Proof.
  intros Hi Hl. unfold get_next_simulation_state.
  destruct (foldM_total (next_step (vals last size) m)
              (fun pre s => s = vals (ev c src) (length pre)) (nodes a) [])
    as (r & E & Er).
  - reflexivity.
  - intros pre x suf s El ->. destruct (node_split _ _ _ El) as (Hn & Hle).
    eexists; split; [|rewrite app_length, Nat.add_1_r, vals_S; reflexivity].
    unfold next_step. destruct Hn as (Elit & Hn).
    rewrite Elit, shiftr_double. unfold lenN at 1. rewrite vals_length.
    fold (lenN pre). rewrite N.eqb_refl. cbn [assert_ bind].
    destruct (classify c (lenN pre) Hle) as [H0|[HI|[HL|HG]]].
    + rewrite H0 in *. destruct (node_is_zero c x (conj Elit Hn)) as (_ & ->).
      destruct pre; [|discriminate]. reflexivity.
    + destruct (node_is_input c _ x (conj Elit Hn) HI) as (_ & ->).
      rewrite (Hi _ HI). cbn [unwrap bind]. do 2 f_equal.
      fold (lenN pre). rewrite ev_src by auto. auto.
    + destruct HL as (nx & rs & L).
      destruct (node_is_latch c _ x nx rs (conj Elit Hn) L) as (_ & Et & E1 & E2).
      destruct (latch_wf _ _ _ _ Hwf Hf L).
      unfold get_latch_input. rewrite Et, E1. cbn [node_type_eqb assert_ bind].
      destruct (nx =? usize_max) eqn:X1; [unfold usize_max in *; lia|].
      cbn [negb assert_ bind]. destruct Hwf as (Hw1 & _).
      destruct (Hw1 _ _ _ L) as (Hrg & _). unfold lit_in_range in Hrg.
      rewrite sim_lit_ok by (unfold size; lia). cbn [bind]. fold (lenN pre).
      rewrite ev_src by (right; left; exists nx, rs; auto). rewrite (Hl _ _ _ L). reflexivity.
    + destruct HG as (r0 & r1 & G).
      destruct (node_is_gate c _ x r0 r1 (conj Elit Hn) G) as (_ & Et & _). rewrite Et.
      replace (length pre) with (N.to_nat (lenN pre)) by (unfold lenN; lia).
      rewrite (and_result_ok src _ _ _ _ G (conj Elit Hn)). cbn [bind].
      try rewrite N2Nat.id. reflexivity.
  - rewrite E. cbn [bind]. subst r. unfold lenN. rewrite vals_length, N.eqb_refl. cbn [assert_ bind].
    rewrite nodes_len. reflexivity.
Qed.

(** The initial state is computed right. *)
Lemma initial_state_ok init m src :
  (forall v, is_input c v -> map_get m v = Some (src v)) ->
  (forall v nx r, latch c v nx r ->
     (r = 0 -> src v = false) /\ (r = 1 -> src v = true) /\
     (r = 2 * v -> map_get init v = Some (src v))) ->
  get_initial_simulation_state a m init = Ok (vals (ev c src) size).
Proof.
  intros Hi Hl. unfold get_initial_simulation_state.
  destruct (foldM_total (init_step m init)
              (fun pre s => s = (lenN pre, vals (ev c src) (length pre))) (nodes a) (0, []))
    as (r & E & Er).
  - reflexivity.
  - intros pre x suf s El ->. destruct (node_split _ _ _ El) as (Hn & Hle).
    eexists; split; [|rewrite app_length, Nat.add_1_r, vals_S; unfold lenN at 1;
                       rewrite app_length, Nat.add_1_r; reflexivity].
    unfold init_step. destruct Hn as (Elit & Hn).
    rewrite Elit, shiftr_double. rewrite N.eqb_refl. cbn [assert_ bind].
    unfold lenN at 1. rewrite vals_length.
    fold (lenN pre). rewrite N.eqb_refl. cbn [assert_ bind].
    replace (N.of_nat (S (length pre))) with (lenN pre + 1) by (unfold lenN; lia).
    destruct (classify c (lenN pre) Hle) as [H0|[HI|[HL|HG]]].
    + rewrite H0 in *. destruct (node_is_zero c x (conj Elit Hn)) as (_ & ->).
      destruct pre; [|discriminate]. reflexivity.
    + destruct (node_is_input c _ x (conj Elit Hn) HI) as (_ & ->).
      rewrite (Hi _ HI). cbn [unwrap bind]. do 2 f_equal.
      fold (lenN pre). rewrite ev_src by auto. auto.
    + pose proof HL as HL'. destruct HL as (nx & rs & L).
      destruct (node_is_latch c _ x nx rs (conj Elit Hn) L) as (_ & Et & E1 & E2).
      destruct (latch_wf _ _ _ _ Hwf Hf L).
      unfold get_latch_reset. rewrite Et, E2. cbn [node_type_eqb assert_ bind].
      destruct (rs =? usize_max) eqn:X1; [unfold usize_max in *; lia|].
      cbn [negb assert_ bind]. destruct Hwf as (Hw1 & _).
      destruct (Hw1 _ _ _ L) as (_ & Hrs). destruct (Hl _ _ _ L) as (R0 & R1 & R2).
      fold (lenN pre). rewrite ev_src by auto.
      destruct (rs =? 1) eqn:Y1. { rewrite (R1 (proj1 (N.eqb_eq _ _) Y1)). reflexivity. }
      destruct (rs =? 0) eqn:Y0. { rewrite (R0 (proj1 (N.eqb_eq _ _) Y0)). reflexivity. }
      assert (rs = 2 * lenN pre) as -> by lia.
      rewrite shiftr_double, N.eqb_refl. cbn [assert_ bind].
      unfold map_contains. rewrite R2 by auto. reflexivity.
    + destruct HG as (r0 & r1 & G).
      destruct (node_is_gate c _ x r0 r1 (conj Elit Hn) G) as (_ & Et & _). rewrite Et.
      replace (length pre) with (N.to_nat (lenN pre)) by (unfold lenN; lia).
      rewrite (and_result_ok src _ _ _ _ G (conj Elit Hn)). cbn [bind].
      try rewrite N2Nat.id. reflexivity.
  - rewrite E. subst r. cbn [bind]. unfold lenN at 1. rewrite vals_length. fold (lenN (nodes a)).
    rewrite N.eqb_refl. cbn [assert_ bind]. rewrite nodes_len. reflexivity.
Qed.

(** Success of the initial state needs values for uninitialised latches. *)
Lemma initial_state_needs init m r : get_initial_simulation_state a m init = Ok r ->
  forall v nx rs, latch c v nx rs -> rs = 2 * v -> In v (keys init).
Proof.
  unfold get_initial_simulation_state. intros H v nx rs L Er. binds. destruct a0 as (i, res).
  destruct (latch_node a c v nx rs Hr Hwf Hf L) as (n & En & El & Et & _ & E2).
  apply index_ok in En. apply nth_error_In in En.
  destruct (foldM_ok_in _ _ _ _ _ E En) as ((i1, r1) & s2 & Es).
  unfold init_step in Es. rewrite Et, E2, El, shiftr_double in Es. cbn [bind] in Es.
  pose proof (latch_range _ _ _ _ L). subst rs.
  destruct (2 * v =? 1) eqn:Y1; [lia|]. destruct (2 * v =? 0) eqn:Y0; [lia|].
  binds. apply map_contains_in; auto.
Qed.

(** The source of step [t]: inputs from the maps, latches from the previous clock. *)
Definition value_in (m : BoolMap) (v : N) : bool :=
  match map_get m v with Some x => x | None => false end.

Definition latch_next (last : valuation) (v : N) : bool :=
  match latch_dec c v with
  | inleft (exist _ (nx, _) _) => lit_value last nx
  | inright _ => false
  end.
Definition latch_first (init : BoolMap) (v : N) : bool :=
  match latch_dec c v with
  | inleft (exist _ (_, rs) _) => if rs =? 0 then false else if rs =? 1 then true else value_in init v
  | inright _ => false
  end.

Lemma latch_next_ok last v nx r : latch c v nx r -> latch_next last v = lit_value last nx.
Proof.
  intros L. unfold latch_next. destruct (latch_dec c v) as [((n', r'), L')|H].
  - simpl in L'. destruct (latch_fun _ _ _ _ _ _ L L'); subst; auto.
  - exfalso; apply H. exists nx, r; auto.
Qed.

Lemma latch_first_ok init v nx r : latch c v nx r -> latch_first init v =
  if r =? 0 then false else if r =? 1 then true else value_in init v.
Proof.
  intros L. unfold latch_first. destruct (latch_dec c v) as [((n', r'), L')|H].
  - simpl in L'. destruct (latch_fun _ _ _ _ _ _ L L'); subst; auto.
  - exfalso; apply H. exists nx, r; auto.
Qed.

Definition in_src (m : BoolMap) (lat : N -> bool) (v : N) : bool :=
  if v <=? c_inputs c then value_in m v else lat v.

Definition sim_src (init : BoolMap) (ins : list BoolMap) : nat -> valuation :=
  fix go t := match t with
  | O => ev c (in_src (nth 0 ins []) (latch_first init))
  | S t' => ev c (in_src (nth (S t') ins []) (latch_next (go t')))
  end.

Definition covers_inputs (m : BoolMap) : Prop := forall v, is_input c v -> In v (keys m).

Lemma value_in_ok m v : In v (keys m) -> map_get m v = Some (value_in m v).
Proof.
  intros H. apply map_contains_in in H. unfold map_contains, value_in in *.
  destruct (map_get m v); congruence.
Qed.

Lemma in_src_input m lat v : is_input c v -> in_src m lat v = value_in m v.
Proof. unfold in_src, is_input. intros H. destruct (v <=? _) eqn:E; auto. lia. Qed.

Lemma in_src_latch m lat v nx r : latch c v nx r -> in_src m lat v = lat v.
Proof. unfold in_src. intros H. apply latch_range in H. destruct (v <=? _) eqn:E; auto. lia. Qed.

Lemma simulate_loop_ok init ins : forall rest pre,
  ins = pre ++ rest -> pre <> [] -> Forall covers_inputs rest ->
  simulate_loop a (vals (sim_src init ins (pred (length pre))) size) rest =
  Ok (map (fun t => vals (sim_src init ins t) size) (seq (length pre) (length rest))).
Proof.
  induction rest as [|m rest IH]; intros pre E Hne Hc; [reflexivity|].
  inv Hc. cbn [simulate_loop].
  destruct (length pre) as [|k] eqn:Ek. { destruct pre; [contradiction|discriminate]. }
  rewrite (next_state_ok _ _ (in_src m (latch_next (sim_src init (pre ++ m :: rest) k)))).
  - assert (Es : ev c (in_src m (latch_next (sim_src init (pre ++ m :: rest) k))) =
                 sim_src init (pre ++ m :: rest) (S k)).
    { cbn [sim_src]. rewrite <- Ek, app_nth2, Nat.sub_diag by lia. reflexivity. }
    rewrite Es. cbn [bind].
    specialize (IH (pre ++ [m])). rewrite app_length, Nat.add_1_r in IH. cbn [pred] in IH.
    rewrite Ek in IH. rewrite <- app_assoc in IH. rewrite IH; auto.
    + destruct pre; discriminate.
  - intros v Hv. rewrite in_src_input by auto. apply value_in_ok. auto.
  - intros v nx r L. rewrite (in_src_latch _ _ _ _ _ L).
    cbn [pred]. apply (latch_next_ok _ _ _ _ L).
Qed.

Lemma check_inputs_iff m : check_clk_inputs a m = Ok tt <->
  lenN m = c_inputs c /\ covers_inputs m.
Proof.
  unfold check_clk_inputs.
  replace (number_of_inputs a) with (c_inputs c) by (unfold represents in Hr; symmetry; tauto).
  replace (inputs a) with (numbers 1 (c_inputs c)) by (unfold represents in Hr; symmetry; tauto).
  unfold lenN at 2. rewrite numbers_length, N2Nat.id, N.eqb_refl.
  assert (G : forallb (map_contains m) (numbers 1 (c_inputs c)) = true <-> covers_inputs m).
  { rewrite forallb_forall. unfold covers_inputs. split; intros H v Hv.
    - apply map_contains_in. apply H. apply in_numbers. unfold is_input in Hv. lia.
    - apply map_contains_in. apply H. apply in_numbers in Hv. unfold is_input. lia. }
  split.
  - intros H. binds. split; [lia|]. apply G. auto.
  - intros (-> & H). rewrite N.eqb_refl. cbn [assert_ bind]. apply G in H. rewrite H. reflexivity.
Qed.

Lemma check_initial_iff init :
  mapM (check_initial_latch a init) (latches a) = Ok (map (fun _ => tt) (latches a)) <->
  (forall v nx r, latch c v nx r -> r = v -> In v (keys init)).
Proof.
  assert (E : latches a = numbers (c_inputs c + 1) (lenN (c_latches c)))
    by (unfold represents in Hr; tauto).
  split.
  - intros H v nx r L Er. apply mapM_ok in H. subst r.
    destruct (latch_node a c v nx v Hr Hwf Hf L) as (n & En & _ & _ & _ & E2).
    assert (Hin : In v (latches a)).
    { rewrite E. apply in_numbers. apply latch_range in L. lia. }
    apply In_nth_error in Hin. destruct Hin as (i & Hi).
    assert (Hc : check_initial_latch a init v = Ok tt).
    { clear - H Hi. revert i Hi. generalize (latches a) H. clear.
      induction l; intros H i Hi; [destruct i; discriminate|].
      inv H. destruct i; simpl in Hi; [inv Hi; auto|eapply IHl; eauto]. }
    unfold check_initial_latch in Hc. rewrite En in Hc. cbn [bind] in Hc.
    rewrite E2 in Hc. cbn [bind] in Hc. rewrite N.eqb_refl in Hc. binds.
    apply map_contains_in; auto.
  - intros H. apply mapM_total. intros v Hv. rewrite E in Hv. apply in_numbers in Hv.
    assert (HL : is_latch c v) by (apply is_latch_iff; lia). destruct HL as (nx & r & L).
    destruct (latch_node a c v nx r Hr Hwf Hf L) as (n & En & _ & _ & _ & E2).
    unfold check_initial_latch. rewrite En. cbn [bind]. rewrite E2. cbn [bind].
    destruct (r =? v) eqn:X; auto. apply N.eqb_eq in X.
    rewrite (proj2 (map_contains_in init v)); auto. eapply H; eauto.
Qed.

(** When [simulate] returns and what. *)
Lemma simulate_spec ins init :
  (exists r, simulate a ins init = Ok r) <->
  ins <> [] /\ Forall (fun m => lenN m = c_inputs c /\ covers_inputs m) ins /\
  lenN init <= lenN (c_latches c) /\
  (forall v nx r, latch c v nx r -> r = v -> In v (keys init)) /\
  (forall v nx r, latch c v nx r -> r = 2 * v -> In v (keys init)).
Proof.
  assert (El : lenN (latches a) = lenN (c_latches c)).
  { unfold represents in Hr. destruct Hr as (_ & _ & _ & _ & _ & _ & _ & _ & _ & _ & _ & _ & -> & _).
    unfold lenN at 1. rewrite numbers_length. lia. }
  assert (En : number_of_latches a = lenN (c_latches c)) by (unfold represents in Hr; tauto).
  split.
  - intros (r & H). destruct ins as [|m ins]; [discriminate|]. unfold simulate in H. binds.
    split; [discriminate|]. split; [|split; [|split]].
    + apply mapM_ok in E. revert E. generalize a0. generalize (m :: ins).
      induction l as [|m1 l IH]; intros r1 HF; inv HF; constructor; eauto.
      apply check_inputs_iff. destruct y; auto.
    + lia.
    + apply check_initial_iff. rewrite E2. f_equal.
      apply mapM_ok in E2. clear - E2. induction E2; simpl; auto. destruct y. f_equal; auto.
    + eapply initial_state_needs; eauto.
  - intros (Hne & Hi & Hn & H1 & H2). destruct ins as [|m ins]; [contradiction|].
    unfold simulate.
    rewrite (mapM_total (check_clk_inputs a) (fun _ => tt)).
    2:{ intros x Hx. apply check_inputs_iff. rewrite Forall_forall in Hi. auto. }
    cbn [bind]. rewrite En, El, N.eqb_refl.
    replace (lenN init <=? lenN (c_latches c)) with true by lia. cbn [assert_ bind].
    rewrite (proj2 (check_initial_iff init) H1). cbn [bind].
    rewrite (initial_state_ok init m (in_src m (latch_first init))).
    + cbn [bind]. inv Hi.
      pose proof (simulate_loop_ok init (m :: ins) ins [m] eq_refl) as SL.
      cbn [length pred] in SL. change (sim_src init (m :: ins) 0) with
        (ev c (in_src m (latch_first init))) in SL. rewrite SL.
      * cbn [bind]. eauto.
      * discriminate.
      * eapply Forall_impl; [|eassumption]. intros x Hx; apply Hx.
    + intros v Hv. rewrite in_src_input by auto. apply value_in_ok.
      rewrite Forall_forall in Hi. apply (Hi m (or_introl eq_refl)); auto.
    + intros v nx r L. rewrite (in_src_latch _ _ _ _ _ L), (latch_first_ok _ _ _ _ L).
      pose proof (latch_range _ _ _ _ L). split; [|split]; intros ->; auto.
      replace (2 * v =? 0) with false by lia. replace (2 * v =? 1) with false by lia.
      apply value_in_ok. eapply H2; eauto.
Qed.

Lemma simulate_value ins init r : simulate a ins init = Ok r ->
  r = map (fun t => vals (sim_src init ins t) size) (seq 0 (length ins)).
Proof.
  intros H. pose proof (proj1 (simulate_spec ins init) (ex_intro _ _ H)) as (Hne & Hi & Hn & H1 & H2).
  destruct ins as [|m ins]; [contradiction|]. unfold simulate in H. binds.
  rewrite (initial_state_ok init m (in_src m (latch_first init))) in E3.
  - inv E3. inv Hi.
    pose proof (simulate_loop_ok init (m :: ins) ins [m] eq_refl) as SL.
    cbn [length pred] in SL. change (sim_src init (m :: ins) 0) with
      (ev c (in_src m (latch_first init))) in SL. rewrite SL in E4.
    + inv E4. reflexivity.
    + discriminate.
    + eapply Forall_impl; [|eassumption]. intros x Hx; apply Hx.
  - intros v Hv. rewrite in_src_input by auto. apply value_in_ok.
    rewrite Forall_forall in Hi. apply (Hi m (or_introl eq_refl)); auto.
  - intros v nx rs L. rewrite (in_src_latch _ _ _ _ _ L), (latch_first_ok _ _ _ _ L).
    pose proof (latch_range _ _ _ _ L). split; [|split]; intros ->; auto.
    replace (2 * v =? 0) with false by lia. replace (2 * v =? 1) with false by lia.
    apply value_in_ok. eapply H2; eauto.
Qed.

Lemma sim_src_trace ins init :
  Forall (fun m => NoDup (keys m) /\ covers_inputs m) ins -> NoDup (keys init) ->
  (forall v nx r, latch c v nx r -> r = 2 * v -> In v (keys init)) ->
  sim_trace c ins init (sim_src init ins).
Proof.
  intros Hi Hn Hl t m Et. rewrite Forall_forall in Hi.
  pose proof (nth_error_In _ _ Et) as Hm. destruct (Hi _ Hm) as (Hk & Hc).
  assert (En : nth t ins [] = m) by (apply nth_error_nth; auto).
  split; [|split; [|split]].
  - destruct t; apply ev_wires_ok; auto.
  - intros v Hv. apply map_get_in; auto. rewrite value_in_ok by auto. f_equal.
    destruct t; cbn [sim_src]; rewrite ev_src, in_src_input by auto;
      exact (f_equal (fun x => value_in x v) (eq_sym En)).
  - intros -> v nx r L. cbn [sim_src].
    rewrite ev_src by (right; left; exists nx, r; auto).
    rewrite (in_src_latch _ _ _ _ _ L), (latch_first_ok _ _ _ _ L).
    pose proof (latch_range _ _ _ _ L). split; [|split]; intros ->; auto.
    replace (2 * v =? 0) with false by lia. replace (2 * v =? 1) with false by lia.
    apply map_get_in; auto. apply value_in_ok. eapply Hl; eauto.
  - intros t' -> v nx r L. cbn [sim_src].
    rewrite ev_src by (right; left; exists nx, r; auto).
    rewrite (in_src_latch _ _ _ _ _ L). apply (latch_next_ok _ _ _ _ L).
Qed.

Lemma sim_trace_unique ins init w w' :
  Forall (fun m => NoDup (keys m)) ins -> NoDup (keys init) ->
  sim_trace c ins init w -> sim_trace c ins init w' ->
  forall t v, (t < length ins)%nat -> v <= c_max c -> w t v = w' t v.
Proof.
  intros Hk Hi H H'. rewrite Forall_forall in Hk.
  assert (IN : forall (m : BoolMap) v (x y : bool), NoDup (keys m) -> In (v, x) m -> In (v, y) m -> x = y).
  { intros m v x y Hm H1 H2. apply map_get_in in H1, H2; auto. congruence. }
  induction t as [|t IH]; intros v Ht Hv.
  - destruct (nth_error_lt _ _ Ht) as (m & Em).
    destruct (H _ _ Em) as (W & I & L & _). destruct (H' _ _ Em) as (W' & I' & L' & _).
    pose proof (Hk _ (nth_error_In _ _ Em)) as Km.
    rewrite (wires_unique c (w 0%nat) (w' 0%nat) Hwf W).
    + symmetry. apply (wires_unique c (w' 0%nat) (w' 0%nat) Hwf W'); auto.
    + intros u [Hu|(nx & r & Hu)].
      * apply (IN m u); auto.
      * destruct (L eq_refl _ _ _ Hu) as (A0 & A1 & A2).
        destruct (L' eq_refl _ _ _ Hu) as (B0 & B1 & B2).
        destruct Hwf as (Hw & _). destruct (Hw _ _ _ Hu) as (_ & [E|[E|E]]).
        -- rewrite A0, B0; auto.
        -- rewrite A1, B1; auto.
        -- apply (IN init u); auto.
    + auto.
  - destruct (nth_error_lt _ _ Ht) as (m & Em).
    destruct (H _ _ Em) as (W & I & _ & L). destruct (H' _ _ Em) as (W' & I' & _ & L').
    pose proof (Hk _ (nth_error_In _ _ Em)) as Km.
    rewrite (wires_unique c (w (S t)) (w' (S t)) Hwf W).
    + symmetry. apply (wires_unique c (w' (S t)) (w' (S t)) Hwf W'); auto.
    + intros u [Hu|(nx & r & Hu)].
      * apply (IN m u); auto.
      * rewrite (L t eq_refl _ _ _ Hu), (L' t eq_refl _ _ _ Hu).
        apply lit_value_ext. apply IH; [lia|]. destruct Hwf as (Hw & _).
        destruct (Hw _ _ _ Hu) as (X & _). exact X.
    + auto.
Qed.

Definition read_value (r : list (list bool)) (t : nat) (v : N) : bool :=
  nth (N.to_nat v) (nth t r []) false.

Lemma read_vals w n v : (N.to_nat v < n)%nat -> nth (N.to_nat v) (vals w n) false = w v.
Proof.
  intros H. assert (E := vals_index w n v H). apply index_ok in E.
  apply nth_error_nth with (d := false) in E. auto.
Qed.

Lemma simulate_correct ins init r :
  Forall (fun m => NoDup (keys m)) ins -> NoDup (keys init) ->
  simulate a ins init = Ok r ->
  length r = length ins /\
  Forall (fun vec => lenN vec = c_max c + 1) r /\
  sim_trace c ins init (fun t v => if v <=? c_max c then read_value r t v else false).
Proof.
  intros Hk Hi H.
  pose proof (proj1 (simulate_spec ins init) (ex_intro _ _ H)) as (Hne & Hin & Hn & H1 & H2).
  apply simulate_value in H. subst r. split; [|split].
  - rewrite map_length, seq_length; auto.
  - apply Forall_forall. intros x Hx. apply in_map_iff in Hx. destruct Hx as (t & <- & _).
    unfold lenN. rewrite vals_length. unfold size. lia.
  - assert (T : sim_trace c ins init (sim_src init ins)).
    { apply sim_src_trace; auto. rewrite Forall_forall in *. intros m Hm. split; auto.
      apply Hin; auto. }
    assert (E : forall t, (t < length ins)%nat -> forall v, v <= c_max c ->
      (if v <=? c_max c then read_value
        (map (fun t => vals (sim_src init ins t) size) (seq 0 (length ins))) t v else false) =
      sim_src init ins t v).
    { intros t Ht v Hv. replace (v <=? c_max c) with true by lia. unfold read_value.
      rewrite (nth_indep _ [] (vals (sim_src init ins 0) size))
        by (rewrite map_length, seq_length; auto).
      rewrite (map_nth (fun t => vals (sim_src init ins t) size)), seq_nth by auto.
      apply read_vals. unfold size. lia. }
    intros t m Et. destruct (T t m Et) as (W & I & L & S).
    assert (Ht : (t < length ins)%nat) by (eapply nth_error_some_lt; eauto).
    destruct Hwf as (Hw1 & Hw2 & Hw3 & Hw4 & Hw5).
    split; [|split; [|split]].
    + destruct W as (W0 & Wg). split; [rewrite E; auto; lia|].
      intros v r0 r1 G. pose proof (gate_range _ _ _ _ G).
      pose proof (Hw5 _ _ _ G). rewrite E by (auto; lia). rewrite (Wg _ _ _ G).
      f_equal; apply lit_value_ext; symmetry; apply E; auto; unfold lit_var; lia.
    + intros v Hv. rewrite E by (auto using input_le_max). auto.
    + intros E0 v nx rs Lt. assert (v <= c_max c) by (apply latch_le_max; exists nx, rs; auto).
      rewrite E by auto. eapply L; eauto.
    + intros t' -> v nx rs Lt. assert (v <= c_max c) by (apply latch_le_max; exists nx, rs; auto).
      rewrite E by auto. rewrite (S t' eq_refl _ _ _ Lt). apply lit_value_ext. symmetry. apply E; [lia|].
      destruct (Hw1 _ _ _ Lt) as (X & _). exact X.
Qed.

End Sim.
