(** Model of src/algorithms/proof/pdr.rs. *)
From Verif Require Import Base Formulas FormulaLogic Fsts Solvers Ic3.
Open Scope nat_scope.

(** pdr.rs:46-51. *)
Inductive Frame := FNull | FInf | FOk (i : nat).

(** Derived [PartialEq] of Frame, pdr.rs:46. *)
Definition frame_eqb (x y : Frame) : bool :=
  match x, y with
  | FNull, FNull | FInf, FInf => true
  | FOk i, FOk j => Nat.eqb i j
  | _, _ => false
  end.

(** pdr.rs:53-57. *)
Record TCube := mkTCube { t_cube : Cube; t_frame : Frame }.

(** Derived [PartialEq] of TCube, pdr.rs:53. *)
Definition tcube_eqb (x y : TCube) : bool :=
  cube_eqb (t_cube x) (t_cube y) && frame_eqb (t_frame x) (t_frame y).

(** pdr.rs:59-63. *)
Inductive SolveRelativeParam := DoNotExtractModel | ExtractModel | NoInd.

(** The keys of [sat_call_stats] (pdr.rs:667-673). *)
Inductive StatsKey :=
| K_get_bad_cube | K_is_blocked | K_solve_relative (params : SolveRelativeParam).

(** The counts in [sat_call_stats] (pdr.rs:94,667-673) without the times. *)
Record SatCallStats := mkSatCallStats {
  calls_get_bad_cube : nat;
  calls_is_blocked : nat;
  calls_do_not_extract_model : nat;
  calls_no_ind : nat;
  calls_extract_model : nat }.

(** [sat_call_stats.get_mut(key).unwrap().0 += 1] (pdr.rs:127,159,190-205).  The counts are
    [u32]s that only grow and are only printed; the model counts without a limit and checks for
    an overflow, which panics in a debug build, when [prove] is done ([stats_fit] below). *)
Definition count_call (key : StatsKey) (x : SatCallStats) : SatCallStats :=
  let '(mkSatCallStats n1 n2 n3 n4 n5) := x in
  match key with
  | K_get_bad_cube => mkSatCallStats (S n1) n2 n3 n4 n5
  | K_is_blocked => mkSatCallStats n1 (S n2) n3 n4 n5
  | K_solve_relative DoNotExtractModel => mkSatCallStats n1 n2 (S n3) n4 n5
  | K_solve_relative NoInd => mkSatCallStats n1 n2 n3 (S n4) n5
  | K_solve_relative ExtractModel => mkSatCallStats n1 n2 n3 n4 (S n5)
  end.

(** No count overflowed (pdr.rs:127,159,190-205 in a debug build). *)
Definition stats_fit (b : build) (x : SatCallStats) : res unit :=
  _ <- sat_calls_fit b (calls_get_bad_cube x) ;;
  _ <- sat_calls_fit b (calls_is_blocked x) ;;
  _ <- sat_calls_fit b (calls_do_not_extract_model x) ;;
  _ <- sat_calls_fit b (calls_no_ind x) ;;
  sat_calls_fit b (calls_extract_model x).

(** pdr.rs:69-97; [pdr_draws] counts random draws. *)
Record PdrState (SS : StatefulSolver) := mkPdrState {
  pdr_f : list (list Cube);
  pdr_notp : list (ss_state SS);
  pdr_ri : list (ss_state SS);
  pdr_rit : list (ss_state SS);
  pdr_cut_pred : bool;
  pdr_cut_bad : bool;
  pdr_stats : SatCallStats;
  pdr_draws : nat }.
Arguments mkPdrState {SS}.
Arguments pdr_f {SS}.
Arguments pdr_notp {SS}.
Arguments pdr_ri {SS}.
Arguments pdr_rit {SS}.
Arguments pdr_cut_pred {SS}.
Arguments pdr_cut_bad {SS}.
Arguments pdr_stats {SS}.
Arguments pdr_draws {SS}.

(** The cached formulas, pdr.rs:82-86. *)
Record PdrCache := mkPdrCache {
  p_initial : CNF;
  p_initial_and_not_p : CNF;
  p_initial_and_t : CNF;
  p_ri_and_not_p : CNF;
  p_ri_and_t : CNF }.

(** pdr.rs:643-665. *)
Definition pdr_cache (s : FSTS) : PdrCache :=
  let not_p0 := get_unsafety_property s in
  let connection := get_state_to_safety_translation s in
  let transition := get_transition_relation s in
  let initial := cube_to_cnf (get_initial_relation s) in
  mkPdrCache initial
    (cnf_add_clause (cnf_append (cnf_append cnf_new initial) connection) not_p0)
    (cnf_append (cnf_append cnf_new initial) transition)
    (cnf_add_clause (cnf_append cnf_new connection) not_p0)
    (cnf_append cnf_new transition).

Section Pdr.
Variable (b : build) (R : Random) (SS : StatefulSolver) (s : FSTS).
Notation St := (PdrState SS).
Notation C := (pdr_cache s).

(** Update of the field [f] (pdr.rs:69-97). *)
Definition with_f (st : St) f : St :=
  mkPdrState f (pdr_notp st) (pdr_ri st) (pdr_rit st) (pdr_cut_pred st) (pdr_cut_bad st)
    (pdr_stats st) (pdr_draws st).
(** Update of the solvers with the unsafety property (pdr.rs:69-97). *)
Definition with_notp (st : St) x : St :=
  mkPdrState (pdr_f st) x (pdr_ri st) (pdr_rit st) (pdr_cut_pred st) (pdr_cut_bad st)
    (pdr_stats st) (pdr_draws st).
(** Update of the solvers of the frames (pdr.rs:69-97). *)
Definition with_ri (st : St) x : St :=
  mkPdrState (pdr_f st) (pdr_notp st) x (pdr_rit st) (pdr_cut_pred st) (pdr_cut_bad st)
    (pdr_stats st) (pdr_draws st).
(** Update of the solvers with the transition relation (pdr.rs:69-97). *)
Definition with_rit (st : St) x : St :=
  mkPdrState (pdr_f st) (pdr_notp st) (pdr_ri st) x (pdr_cut_pred st) (pdr_cut_bad st)
    (pdr_stats st) (pdr_draws st).
(** Update of the flag that cuts predecessors (pdr.rs:69-97). *)
Definition with_cut_pred (st : St) x : St :=
  mkPdrState (pdr_f st) (pdr_notp st) (pdr_ri st) (pdr_rit st) x (pdr_cut_bad st)
    (pdr_stats st) (pdr_draws st).
(** Update of the flag that cuts bad states (pdr.rs:69-97). *)
Definition with_cut_bad (st : St) x : St :=
  mkPdrState (pdr_f st) (pdr_notp st) (pdr_ri st) (pdr_rit st) (pdr_cut_pred st) x
    (pdr_stats st) (pdr_draws st).
(** Update of the statistics (pdr.rs:127,159,190-205). *)
Definition counted (key : StatsKey) (st : St) : St :=
  mkPdrState (pdr_f st) (pdr_notp st) (pdr_ri st) (pdr_rit st) (pdr_cut_pred st)
    (pdr_cut_bad st) (count_call key (pdr_stats st)) (pdr_draws st).
(** Update of the number of random draws (pdr.rs:69-97). *)
Definition with_draws (st : St) x : St :=
  mkPdrState (pdr_f st) (pdr_notp st) (pdr_ri st) (pdr_rit st) (pdr_cut_pred st)
    (pdr_cut_bad st) (pdr_stats st) x.

(** pdr.rs:108-117, [next]. *)
Definition tcube_next (t : TCube) : res TCube :=
  match t_frame t with
  | FOk i => Ok (mkTCube (t_cube t) (FOk (i + 1)))
  | _ => Panic
  end.

(** [usize] subtraction (pdr.rs:213,217,360,367,578): below zero it panics in debug and wraps in release; the wrapped
    value is only used as an index or a bound far above every frame, hence [Panic] here. *)
Definition nat_sub (x y : nat) : res nat :=
  if (y <=? x)%nat then Ok (x - y) else Panic.

(** pdr.rs:359-361, [depth]. *)
Definition pdr_depth (st : St) : res nat := nat_sub (length (pdr_f st)) 2.

(** pdr.rs:123-151, [z_get_bad_cube]. *)
Definition z_get_bad_cube (st : St) : res (option Cube * St) :=
  depth <- pdr_depth st ;;
  solver <- indexn (pdr_notp st) depth ;;
  '(sat_response, solver) <- ss_solve SS solver None None ;;
  let st := with_notp (counted K_get_bad_cube st) (set_nth (pdr_notp st) depth solver) in
  match sat_response with
  | Sat assignment =>
      bad_state <- extract_state_from_assignment b s assignment ;;
      if pdr_cut_bad st then
        let size_before := cube_len bad_state in
        let bad_state := intersect_cube_with_cone_of_safety s bad_state in
        let size_after := cube_len bad_state in
        _ <- debug_assert b (size_after <=? size_before)%N ;;
        Ok (Some bad_state, with_cut_bad st (negb (size_before =? size_after)%N))
      else Ok (Some bad_state, st)
  | UnSat => Ok (None, st)
  end.

(** pdr.rs:153-171, [z_is_blocked]; as in the source the cube is not passed to the solver. *)
Definition z_is_blocked (t : TCube) (st : St) : res (bool * St) :=
  match t_frame t with
  | FOk frame =>
      solver <- indexn (pdr_ri st) frame ;;
      '(sat_response, solver) <- ss_solve SS solver None None ;;
      let st := with_ri (counted K_is_blocked st) (set_nth (pdr_ri st) frame solver) in
      Ok (negb (is_sat_response sat_response), st)
  | _ => Panic
  end.

(** pdr.rs:178-285, [z_solve_relative]. *)
Definition z_solve_relative (t : TCube) (params : SolveRelativeParam) (st : St)
  : res (TCube * St) :=
  match t_frame t with
  | FOk i =>
      _ <- debug_assert b ((0 <? i) && (i <? length (pdr_rit st)))%nat ;;
      extra_cube <- add_tags_to_cube b s (t_cube t) 1 ;;
      let extra_clause := cube_not (t_cube t) in
      j <- nat_sub i 1 ;;
      solver <- indexn (pdr_rit st) j ;;
      '(sat_result, solver) <-
          match params with
          | DoNotExtractModel | ExtractModel =>
              ss_solve SS solver (Some extra_cube) (Some extra_clause)
          | NoInd => ss_solve SS solver (Some extra_cube) None
          end ;;
      let st := with_rit (counted (K_solve_relative params) st) (set_nth (pdr_rit st) j solver) in
      match sat_result with
      | Sat assignment =>
          match params with
          | DoNotExtractModel | NoInd => Ok (mkTCube (cube_new []) FNull, st)
          | ExtractModel =>
              predecessor <- extract_state_from_assignment b s assignment ;;
              if pdr_cut_pred st then
                let size_before := cube_len predecessor in
                let predecessor := intersect_cube_with_cone_of_transition s predecessor in
                let size_after := cube_len predecessor in
                _ <- debug_assert b (size_after <=? size_before)%N ;;
                Ok (mkTCube predecessor FNull,
                    with_cut_pred st (negb (size_before =? size_after)%N))
              else Ok (mkTCube predecessor FNull, st)
          end
      | UnSat => Ok (t, st)
      end
  | _ => Panic
  end.

(** pdr.rs:297-299, 305-307: add the clause to the three solvers of frame [i]. *)
Definition add_to_solvers (cnf : CNF) (st : St) (i : nat) : res St :=
  s1 <- indexn (pdr_ri st) i ;;
  s1 <- ss_add_cnf SS s1 cnf ;;
  let st := with_ri st (set_nth (pdr_ri st) i s1) in
  s2 <- indexn (pdr_notp st) i ;;
  s2 <- ss_add_cnf SS s2 cnf ;;
  let st := with_notp st (set_nth (pdr_notp st) i s2) in
  s3 <- indexn (pdr_rit st) i ;;
  s3 <- ss_add_cnf SS s3 cnf ;;
  Ok (with_rit st (set_nth (pdr_rit st) i s3)).

(** pdr.rs:288-290, 314-316, 350-352: lengths of the solver vectors; [less] is 1 or 2. *)
Definition solver_lengths (less : nat) (st : St) : res unit :=
  _ <- debug_assert b (length (pdr_notp st) =? length (pdr_ri st))%nat ;;
  _ <- debug_assert b (length (pdr_notp st) =? length (pdr_rit st))%nat ;;
  debug_assert b (length (pdr_notp st) + less =? length (pdr_f st))%nat.

(** pdr.rs:287-311, [z_block_cube_in_solver]. *)
Definition z_block_cube_in_solver (t : TCube) (st : St) : res St :=
  _ <- solver_lengths 1 st ;;
  let cnf := cnf_add_clause cnf_new (cube_not (t_cube t)) in
  match t_frame t with
  | FNull => Panic
  | FInf => foldM (add_to_solvers cnf) (seq 0 (length (pdr_ri st))) st
  | FOk frame =>
      _ <- debug_assert b (frame <? length (pdr_ri st))%nat ;;
      foldM (add_to_solvers cnf) (seq 0 (frame + 1)) st
  end.

(** A new solver holding one formula (pdr.rs:318-345). *)
Definition solver_with (f : CNF) : res (ss_state SS) := ss_add_cnf SS (ss_new SS HintNone) f.

(** pdr.rs:313-353, [z_new_frame]. *)
Definition z_new_frame (st : St) : res St :=
  _ <- solver_lengths 2 st ;;
  st <- match pdr_notp st with
        | [] =>
            a <- solver_with (p_initial_and_not_p C) ;;
            b0 <- solver_with (p_initial C) ;;
            c <- solver_with (p_initial_and_t C) ;;
            Ok (with_rit (with_ri (with_notp st (pdr_notp st ++ [a])) (pdr_ri st ++ [b0]))
                  (pdr_rit st ++ [c]))
        | _ =>
            a <- solver_with (p_ri_and_not_p C) ;;
            let b0 := ss_new SS HintNone in
            c <- solver_with (p_ri_and_t C) ;;
            Ok (with_rit (with_ri (with_notp st (pdr_notp st ++ [a])) (pdr_ri st ++ [b0]))
                  (pdr_rit st ++ [c]))
        end ;;
  _ <- solver_lengths 1 st ;;
  Ok st.

(** pdr.rs:363-369, [new_frame]. *)
Definition new_frame (st : St) : res St :=
  let n := length (pdr_f st) in
  let f := pdr_f st ++ [[]] in
  m <- nat_sub n 1 ;;
  f <- swap f m n ;;
  z_new_frame (with_f st f).

(** pdr.rs:371-373, [is_solve_relative_un_sat]. *)
Definition is_solve_relative_un_sat (t : TCube) : bool := negb (frame_eqb (t_frame t) FNull).

(** pdr.rs:511-515, [subsumes]. *)
Definition subsumes (c1 c2 : Cube) : bool :=
  forallb (fun l => set_mem N.eqb l (cube_iter c2)) (cube_iter c1).

(** pdr.rs:384-391, removal of the cubes subsumed by [c] from one frame. *)
Fixpoint remove_subsumed (fuel : nat) (c : Cube) (cubes : list Cube) (i : nat)
  : res (list Cube) :=
  if (i <? length cubes)%nat then
    match fuel with
    | 0 => OutOfFuel
    | S fuel' =>
        x <- indexn cubes i ;;
        if subsumes c x then
          '(_, cubes) <- swap_remove cubes i ;;
          remove_subsumed fuel' c cubes i
        else remove_subsumed fuel' c cubes (S i)
    end
  else Ok cubes.

(** pdr.rs:377-402, [add_blocked_cube]. *)
Definition add_blocked_cube (t : TCube) (st : St) : res St :=
  match t_frame t with
  | FOk s_frame_depth =>
      depth <- pdr_depth st ;;
      let k := Nat.min s_frame_depth (depth + 1) in
      f <- foldM (fun f d =>
                    cubes <- indexn f d ;;
                    cubes <- remove_subsumed (length cubes) (t_cube t) cubes 0 ;;
                    Ok (set_nth f d cubes)) (seq 1 k) (pdr_f st) ;;
      cubes <- indexn f k ;;
      z_block_cube_in_solver t (with_f st (set_nth f k (cubes ++ [t_cube t])))
  | _ => Panic
  end.

(** pdr.rs:408-424, [is_blocked]. *)
Definition is_blocked (t : TCube) (st : St) : res (bool * St) :=
  match t_frame t with
  | FOk s_frame =>
      if existsb (existsb (fun c => subsumes c (t_cube t))) (skipn s_frame (pdr_f st))
      then Ok (true, st)
      else z_is_blocked t st
  | _ => Panic
  end.

(** pdr.rs:430-453, the loop of [generalize]. *)
Fixpoint pdr_generalize_loop (fuel : nat) (frame : Frame) (s_literals : list Literal) (j : nat)
  (st : St) : res (list Literal * St) :=
  if (j <? length s_literals)%nat then
    match fuel with
    | 0 => OutOfFuel
    | S fuel' =>
        '(removed, shorter) <- swap_remove s_literals j ;;
        let t := mkTCube (cube_new shorter) frame in
        '(drop, st) <- (if is_cube_initial s (t_cube t) then Ok (false, st)
                        else
                          '(check, st) <- z_solve_relative t DoNotExtractModel st ;;
                          Ok (is_solve_relative_un_sat check, st)) ;;
        if (drop : bool) then pdr_generalize_loop fuel' frame shorter j st
        else
          let pushed := shorter ++ [removed] in
          let last_index := (length pushed - 1)%nat in
          restored <- swap pushed j last_index ;;
          pdr_generalize_loop fuel' frame restored (S j) st
    end
  else Ok (s_literals, st).

(** pdr.rs:426-458, [generalize]. *)
Definition pdr_generalize (t : TCube) (st : St) : res (TCube * St) :=
  let s_literals := R (pdr_draws st) Literal (cube_iter (t_cube t)) in
  let st := with_draws st (S (pdr_draws st)) in
  '(lits, st) <- pdr_generalize_loop (length s_literals) (t_frame t) s_literals 0 st ;;
  Ok (mkTCube (cube_new lits) (t_frame t), st).

(** pdr.rs:467-481, propagation of the cubes of frame [k]. *)
Fixpoint propagate_cubes (fuel : nat) (k clause_index : nat) (st : St) : res St :=
  cubes <- indexn (pdr_f st) k ;;
  if (clause_index <? length cubes)%nat then
    match fuel with
    | 0 => OutOfFuel
    | S fuel' =>
        c <- indexn cubes clause_index ;;
        '(t, st) <- z_solve_relative (mkTCube c (FOk (k + 1))) NoInd st ;;
        if is_solve_relative_un_sat t then
          st <- add_blocked_cube t st ;;
          propagate_cubes fuel' k clause_index st
        else propagate_cubes fuel' k (S clause_index) st
    end
  else Ok st.

(** pdr.rs:465-485, frames still to propagate. *)
Fixpoint propagate_frames (frames : list nat) (st : St) : res (option nat * St) :=
  match frames with
  | [] => Ok (None, st)
  | k :: rest =>
      cubes <- indexn (pdr_f st) k ;;
      st <- propagate_cubes (length cubes) k 0 st ;;
      cubes <- indexn (pdr_f st) k ;;
      match cubes with
      | [] => Ok (Some k, st)
      | _ => propagate_frames rest st
      end
  end.

(** pdr.rs:464-487, [propagate_blocked_cubes]. *)
Definition propagate_blocked_cubes (st : St) : res (option nat * St) :=
  depth <- pdr_depth st ;;
  propagate_frames (seq 1 (depth - 1)) st.

(** pdr.rs:493-509, [get_r_i]. *)
Definition get_r_i (st : St) (i : nat) : res CNF :=
  f0 <- indexn (pdr_f st) 0 ;;
  _ <- assert_ (match f0 with [] => true | _ => false end) ;;
  Ok (if (i =? 0)%nat then cnf_append cnf_new (p_initial C)
      else fold_left (fun acc c => cnf_add_clause acc (cube_not c))
             (concat (skipn i (pdr_f st))) cnf_new).

(** pdr.rs:577-596, pushing a generalised cube to later frames; [bound] is [depth - 1]. *)
Fixpoint push_forward (fuel : nat) (bound : nat) (z : TCube) (z_frame : nat) (st : St)
  : res (TCube * St) :=
  if (z_frame <? bound)%nat then
    match fuel with
    | 0 => OutOfFuel
    | S fuel' =>
        next_z <- tcube_next z ;;
        '(potential_z, st) <- z_solve_relative next_z DoNotExtractModel st ;;
        if is_solve_relative_un_sat potential_z then
          match t_frame potential_z with
          | FOk f => push_forward fuel' bound potential_z f st
          | _ => Panic
          end
        else Ok (z, st)
    end
  else Ok (z, st).

(** pdr.rs:559-634, the loop of [rec_block_cube]. *)
Fixpoint rec_block_loop (fuel : nat) (q : Queue TCube) (st : St) : res (bool * St) :=
  match q with
  | [] => Ok (true, st)
  | _ :: _ =>
      match fuel with
      | 0 => OutOfFuel
      | S fuel' =>
          let p := R (pdr_draws st) in
          let st := with_draws st (S (pdr_draws st)) in
          '((t, _), q) <- unwrap (queue_pop p q) ;;
          match t_frame t with
          | FOk 0 => Ok (false, st)
          | FOk s_frame =>
              '(blocked, st) <- is_blocked t st ;;
              if (blocked : bool) then rec_block_loop fuel' q st
              else
                _ <- debug_assert b (negb (is_cube_initial s (t_cube t))) ;;
                '(z, st) <- z_solve_relative t ExtractModel st ;;
                if is_solve_relative_un_sat z then
                  '(z, st) <- pdr_generalize z st ;;
                  match t_frame z with
                  | FOk z_frame =>
                      depth <- pdr_depth st ;;
                      bound <- nat_sub depth 1 ;;
                      '(z, st) <- push_forward depth bound z z_frame st ;;
                      st <- add_blocked_cube z st ;;
                      if (s_frame <? depth)%nat then
                        next_s <- tcube_next t ;;
                        rec_block_loop fuel' (queue_push tcube_eqb q next_s (s_frame + 1)) st
                      else rec_block_loop fuel' q st
                  | _ => Panic
                  end
                else
                  let z := mkTCube (t_cube z) (FOk (s_frame - 1)) in
                  let q := queue_push tcube_eqb q z (s_frame - 1) in
                  let q := queue_push tcube_eqb q t s_frame in
                  rec_block_loop fuel' q st
          | _ => Panic
          end
      end
  end.

(** pdr.rs:546-635, [rec_block_cube]. *)
Definition rec_block_cube (fuel : nat) (t : TCube) (st : St) : res (bool * St) :=
  match t_frame t with
  | FOk p => rec_block_loop fuel (queue_push tcube_eqb [] t p) st
  | _ => Panic
  end.

(** pdr.rs:702-728, the loop of [prove]. *)
Fixpoint pdr_loop (inner outer : nat) (st : St) : res (ProofResult * St) :=
  match outer with
  | 0 => OutOfFuel
  | S outer' =>
      '(optional_c, st) <- z_get_bad_cube st ;;
      match optional_c with
      | Some c =>
          depth <- pdr_depth st ;;
          '(blocked, st) <- rec_block_cube inner (mkTCube c (FOk depth)) st ;;
          if (blocked : bool) then pdr_loop inner outer' st
          else
            depth <- pdr_depth st ;;
            d <- depth_of_frame depth ;;
            Ok (ProofCTX d, st)
      | None =>
          st <- new_frame st ;;
          '(propagation_result, st) <- propagate_blocked_cubes st ;;
          match propagation_result with
          | Some i => inv <- get_r_i st i ;; Ok (Proof inv, st)
          | None => pdr_loop inner outer' st
          end
      end
  end.

(** pdr.rs:695-729, [prove]. *)
Definition pdr_prove (fuel : nat) (st : St) : res (ProofResult * St) :=
  let st := with_f st (pdr_f st ++ [[]]) in
  st <- new_frame st ;;
  pdr_loop fuel fuel st.

(** pdr.rs:675-692, the state after [new]. *)
Definition pdr_new : St := mkPdrState [] [] [] [] true true (mkSatCallStats 0 0 0 0 0) 0.

End Pdr.

(** [PDR::new(&fsts, _)] (pdr.rs:641-693) followed by [prove] (695-729): the result and the
    final statistics. *)
Definition pdr_run (b : build) (R : Random) (SS : StatefulSolver) (fuel : nat) (s : FSTS)
  : res (ProofResult * SatCallStats) :=
  '(r, st) <- pdr_prove b R SS s fuel (pdr_new SS) ;;
  Ok (r, pdr_stats st).

(** The same with the statistics checked (pdr.rs:127,159,190-205). *)
Definition pdr (b : build) (R : Random) (SS : StatefulSolver) (fuel : nat) (s : FSTS)
  : res ProofResult :=
  '(r, n) <- pdr_run b R SS fuel s ;;
  _ <- stats_fit b n ;;
  Ok r.

(** Two calls of [prove] on the same object (pdr.rs:695-729 twice). *)
Definition pdr_twice_run (b : build) (R : Random) (SS : StatefulSolver) (fuel : nat) (s : FSTS)
  : res (ProofResult * ProofResult * SatCallStats) :=
  '(r1, st) <- pdr_prove b R SS s fuel (pdr_new SS) ;;
  '(r2, st) <- pdr_prove b R SS s fuel st ;;
  Ok (r1, r2, pdr_stats st).

(** The same with the statistics checked (pdr.rs:127,159,190-205). *)
Definition pdr_twice (b : build) (R : Random) (SS : StatefulSolver) (fuel : nat) (s : FSTS)
  : res (ProofResult * ProofResult) :=
  '(r, n) <- pdr_twice_run b R SS fuel s ;;
  _ <- stats_fit b n ;;
  Ok r.
