(** Specification: what is assumed of the third-party SAT engines.  Engines see clauses of
    non-zero integers: z > 0 is a variable, z < 0 its negation. *)
From Verif Require Import Base Formulas FormulaLogic Solvers Brute Spec.
Open Scope Z_scope.

Definition int_true (a : Z -> bool) (z : Z) : Prop :=
  (if z <? 0 then negb (a (- z)) else a z) = true.
Definition ints_true (a : Z -> bool) (cs : list (list Z)) : Prop :=
  forall c, In c cs -> exists z, In z c /\ int_true a z.
Definition all_int_true (a : Z -> bool) (zs : list Z) : Prop :=
  forall z, In z zs -> int_true a z.
Definition ints_satisfiable (cs : list (list Z)) (assumptions : list Z) : Prop :=
  exists a, ints_true a cs /\ all_int_true a assumptions.

(** Legal engine input: non-zero integers (32-bit ones except for MiniSat, whose literals are
    opaque). *)
Definition ints_legal (cs : list (list Z)) : Prop :=
  forall c z, In c cs -> In z c -> z <> 0.
Definition ints_i32 (cs : list (list Z)) : Prop :=
  forall c z, In c cs -> In z c -> z <> 0 /\ -2147483648 < z <= 2147483647.

(** A CaDiCaL answer is right: a model makes the clauses and assumptions true whatever the
    variables without a value are.  CadNone (interrupted) does not occur. *)
Definition cadical_ok (E : CadicalEngine) : Prop :=
  forall n cs assumptions, ints_i32 (assumptions :: cs) ->
    match E n cs assumptions with
    | CadSat value =>
        forall a, (forall v x, 1 <= v -> value v = Some x -> a v = x) ->
          ints_true a cs /\ all_int_true a assumptions
    | CadUnsat => ~ ints_satisfiable cs assumptions
    | CadNone => False
    end.

(** CaDiCaL gives a value to every variable up to the largest one it was given. *)
Definition cadical_values (E : CadicalEngine) : Prop :=
  forall n cs assumptions value, ints_i32 (assumptions :: cs) ->
    E n cs assumptions = CadSat value ->
    forall c z v, In c (assumptions :: cs) -> In z c -> 1 <= v <= Z.abs z -> value v <> None.

(** MiniSat: a model is total. *)
Definition minisat_ok (E : MiniSatEngine) : Prop :=
  forall n cs assumptions, ints_legal cs -> ~ In 0 assumptions ->
    match E n cs assumptions with
    | MiniSat_Ok model => ints_true model cs /\ all_int_true model assumptions
    | MiniSat_Err => ~ ints_satisfiable cs assumptions
    end.

(** A model given as a list of literals: non-zero 32-bit integers, no variable with both
    signs, a literal of every clause. *)
Definition list_model (model : list Z) (cs : list (list Z)) : Prop :=
  (forall z, In z model -> z <> 0 /\ -2147483648 < z <= 2147483647 /\ ~ In (- z) model) /\
  (forall c, In c cs -> exists z, In z c /\ In z model).

(** Splr: models list every variable up to the largest one. *)
Definition splr_ok (E : SplrEngine) : Prop :=
  forall n cs, ints_i32 cs ->
    match E n cs with
    | SplrSat model =>
        list_model model cs /\
        forall c z v, In c cs -> In z c -> 1 <= v <= Z.abs z -> In v model \/ In (- v) model
    | SplrUnsat | SplrEmptyClause => ~ ints_satisfiable cs []
    | SplrOtherError => False
    end.

(** Varisat: models list (at least) enough literals. *)
Definition varisat_ok (E : VarisatEngine) : Prop :=
  forall n cs, ints_i32 cs ->
    match E n cs with
    | VarSat model => list_model model cs
    | VarUnsat => ~ ints_satisfiable cs []
    | VarError => False
    end.

(** [reaches] with a record of the largest variable [m] mentioned in the calls and of the
    number [k] of calls of [solve] with a temporary clause. *)
Inductive reaches_using (SS : StatefulSolver) : ss_state SS -> list Clause -> N -> N -> Prop :=
| using_new h : reaches_using SS (ss_new SS h) [] 0 0
| using_add st cs m k f st' :
    reaches_using SS st cs m k -> api_cnf f -> cnf_legal f -> ss_add_cnf SS st f = Ok st' ->
    reaches_using SS st' (cs ++ cnf_clauses f)%list (N.max m (max_var (cnf_clauses f))) k
| using_solve st cs m k cube clause r st' :
    reaches_using SS st cs m k ->
    (forall q, cube = Some q -> api_cube q /\ cube_legal q) ->
    (forall c, clause = Some c -> api_clause c /\ clause_legal c) ->
    ss_solve SS st cube clause = Ok (r, st') ->
    reaches_using SS st' cs (N.max m (max_var (temp_clauses cube clause)))
      (match clause with Some _ => k + 1 | None => k end)%N.

(** The contract of a stateful solver ([stateful_correct]) for histories that stay within a
    budget: largest variable plus number of temporary clauses at most [B].  [defined] says
    whether models must give a value to every variable up to the largest one. *)
Definition stateful_within (B : N) (defined : Prop) (SS : StatefulSolver) : Prop :=
  forall st cs m k, reaches_using SS st cs m k ->
    (forall f, api_cnf f -> cnf_legal f -> (N.max m (max_var (cnf_clauses f)) + k <= B)%N ->
       exists st', ss_add_cnf SS st f = Ok st') /\
    (forall cube clause,
       (forall q, cube = Some q -> api_cube q /\ cube_legal q) ->
       (forall c, clause = Some c -> api_clause c /\ clause_legal c) ->
       (N.max m (max_var (temp_clauses cube clause)) +
          match clause with Some _ => k + 1 | None => k end <= B)%N ->
       let all := (cs ++ temp_clauses cube clause)%list in
       (exists asg st', ss_solve SS st cube clause = Ok (Sat asg, st') /\
          satisfies_clauses asg all /\ (defined -> defined_upto asg (max_var all))) \/
       (exists st', ss_solve SS st cube clause = Ok (UnSat, st') /\ ~ satisfiable all)).

(** Reference engines (brute force), to show that the contracts can be met. *)
Definition ref_lit (z : Z) : N :=
  if z <? 0 then (2 * Z.to_N (- z) + 1)%N else (2 * Z.to_N z)%N.
Definition ref_cnf (cs : list (list Z)) (assumptions : list Z) : CNF :=
  fold_left cnf_add_clause
    (map (fun c => clause_new (map ref_lit c)) cs ++ map (fun z => clause_new [ref_lit z]) assumptions)
    cnf_new.
Definition ref_solve (cs : list (list Z)) (assumptions : list Z) : SatResponse :=
  let f := ref_cnf cs assumptions in brute_solve (cnf_max f) (cnf_clauses f).
Definition ref_model (cs : list (list Z)) (asg : Assignment) : list Z :=
  map (fun i => match get_value asg (N.of_nat i) with
                | Some true => Z.of_nat i | _ => - Z.of_nat i end)
    (seq 1 (N.to_nat (cnf_max (ref_cnf cs [])))).

Definition ref_cadical : CadicalEngine := fun _ cs assumptions =>
  match ref_solve cs assumptions with
  | Sat asg => CadSat (fun z => get_value asg (Z.to_N z))
  | UnSat => CadUnsat
  end.
Definition ref_minisat : MiniSatEngine := fun _ cs assumptions =>
  match ref_solve cs assumptions with
  | Sat asg => MiniSat_Ok (fun z => match get_value asg (Z.to_N z) with Some x => x | None => false end)
  | UnSat => MiniSat_Err
  end.
Definition ref_splr : SplrEngine := fun _ cs =>
  match ref_solve cs [] with
  | Sat asg => SplrSat (ref_model cs asg)
  | UnSat => SplrUnsat
  end.
Definition ref_varisat : VarisatEngine := fun _ cs =>
  match ref_solve cs [] with
  | Sat asg => VarSat (ref_model cs asg)
  | UnSat => VarUnsat
  end.
