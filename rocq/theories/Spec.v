(** Specification vocabulary: truth of formulas, legality, and the contracts of SAT solvers.
    Nothing here mentions how the code computes; only the data types of the model are used
    (a literal is its code 2*variable+sign, a clause/cube a list of codes, a CNF a list of
    clauses with a declared maximum variable). *)
From Verif Require Import Base Formulas FormulaLogic Solvers.
Open Scope N_scope.

(** A total valuation of the variables. *)
Definition valuation := N -> bool.

(** The variable of a literal code, its sign, its truth value. *)
Definition lit_var (l : N) : N := l / 2.
Definition lit_neg (l : N) : bool := N.odd l.
Definition lit_true (a : valuation) (l : N) : Prop := xorb (a (lit_var l)) (lit_neg l) = true.

(** A clause is true when one literal is, a cube when all are, a CNF when all clauses are. *)
Definition clause_true (a : valuation) (c : Clause) : Prop :=
  exists l, In l (clause_lits c) /\ lit_true a l.
Definition cube_true (a : valuation) (q : Cube) : Prop :=
  forall l, In l (cube_lits q) -> lit_true a l.
Definition clauses_true (a : valuation) (cs : list Clause) : Prop :=
  forall c, In c cs -> clause_true a c.
Definition cnf_true (a : valuation) (f : CNF) : Prop := clauses_true a (cnf_clauses f).

(** Legal literals: variable 1 .. 2^31-1. *)
Definition lit_legal (l : N) : Prop := 2 <= l < 4294967296.
Definition clause_legal (c : Clause) : Prop := Forall lit_legal (clause_lits c).
Definition cube_legal (q : Cube) : Prop := Forall lit_legal (cube_lits q).
Definition cnf_legal (f : CNF) : Prop := Forall clause_legal (cnf_clauses f).

(** Objects that can be built through the API: clauses, cubes, and CNFs (by any history of
    [new], [add_clause], [append]). *)
Definition api_clause (c : Clause) : Prop := exists ls, c = clause_new ls.
Definition api_cube (q : Cube) : Prop := exists ls, q = cube_new ls.

Inductive history :=
| H_new
| H_add (h : history) (ls : list N)
| H_append (h1 h2 : history).

Fixpoint run_history (h : history) : CNF :=
  match h with
  | H_new => cnf_new
  | H_add h ls => cnf_add_clause (run_history h) (clause_new ls)
  | H_append h1 h2 => cnf_append (run_history h1) (run_history h2)
  end.

(** The literal lists handed to [add_clause] in a history. *)
Fixpoint added (h : history) : list (list N) :=
  match h with
  | H_new => []
  | H_add h ls => added h ++ [ls]
  | H_append h1 h2 => added h1 ++ added h2
  end.

Definition api_cnf (f : CNF) : Prop := exists h, f = run_history h.

(** A partial assignment agrees with a valuation. *)
Definition agrees (asg : Assignment) (a : valuation) : Prop :=
  forall v x, get_value asg v = Some x -> a v = x.

(** Every total valuation extending the assignment satisfies the clauses / the cube. *)
Definition satisfies_clauses (asg : Assignment) (cs : list Clause) : Prop :=
  forall a, agrees asg a -> clauses_true a cs.
Definition satisfies_cube (asg : Assignment) (q : Cube) : Prop :=
  forall a, agrees asg a -> cube_true a q.

Definition satisfiable (cs : list Clause) : Prop := exists a, clauses_true a cs.

(** The assignment gives a value to the variables 1 .. m. *)
Definition defined_upto (asg : Assignment) (m : N) : Prop :=
  forall v, 1 <= v <= m -> get_value asg v <> None.

(** Contract of a stateless solver on legal CNFs: the answer is right and a model makes
    the formula true whatever the other variables are. *)
Definition solver_correct (T : StatelessSolver) : Prop :=
  forall n f, api_cnf f -> cnf_legal f ->
    (exists asg, T n f = Ok (Sat asg) /\ satisfies_clauses asg (cnf_clauses f)) \/
    (T n f = Ok UnSat /\ ~ satisfiable (cnf_clauses f)).

(** ... and in addition models give a value to every variable up to the largest one. *)
Definition solver_total (T : StatelessSolver) : Prop :=
  forall n f asg, api_cnf f -> cnf_legal f -> T n f = Ok (Sat asg) ->
    defined_upto asg (cnf_max f).

(** [solver_correct] and [solver_total] for formulas whose variables are below [m]. *)
Definition solver_correct_below (m : N) (T : StatelessSolver) : Prop :=
  forall n f, api_cnf f -> cnf_legal f -> cnf_max f < m ->
    (exists asg, T n f = Ok (Sat asg) /\ satisfies_clauses asg (cnf_clauses f)) \/
    (T n f = Ok UnSat /\ ~ satisfiable (cnf_clauses f)).
Definition solver_total_below (m : N) (T : StatelessSolver) : Prop :=
  forall n f asg, api_cnf f -> cnf_legal f -> cnf_max f < m -> T n f = Ok (Sat asg) ->
    defined_upto asg (cnf_max f).

(** Weaker than [solver_correct_below]: the solver may also panic. *)
Definition solver_sound_below (m : N) (T : StatelessSolver) : Prop :=
  forall n f, api_cnf f -> cnf_legal f -> cnf_max f < m ->
    match T n f with
    | Ok (Sat asg) => satisfies_clauses asg (cnf_clauses f)
    | Ok UnSat => ~ satisfiable (cnf_clauses f)
    | Panic => True
    | OutOfFuel => False
    end.

(** The clauses of the temporary cube and clause of a [solve] call. *)
Definition temp_clauses (cube : option Cube) (clause : option Clause) : list Clause :=
  match cube with Some q => map (fun l => mkClause [l]) (cube_lits q) | None => [] end ++
  match clause with Some c => [c] | None => [] end.

(** The largest variable of a list of clauses (0 if there is none). *)
Definition max_var (cs : list Clause) : N :=
  fold_right (fun c m => N.max (fold_right (fun l m => N.max (lit_var l) m) 0 (clause_lits c)) m)
    0 cs.

(** [reaches SS st cs]: some history of [add_cnf] and [solve] calls with legal arguments on a
    fresh solver leads to the state [st], and the clauses added so far are [cs]. *)
Inductive reaches (SS : StatefulSolver) : ss_state SS -> list Clause -> Prop :=
| reaches_new h : reaches SS (ss_new SS h) []
| reaches_add st cs f st' :
    reaches SS st cs -> api_cnf f -> cnf_legal f -> ss_add_cnf SS st f = Ok st' ->
    reaches SS st' (cs ++ cnf_clauses f)
| reaches_solve st cs cube clause r st' :
    reaches SS st cs ->
    (forall q, cube = Some q -> api_cube q /\ cube_legal q) ->
    (forall c, clause = Some c -> api_clause c /\ clause_legal c) ->
    ss_solve SS st cube clause = Ok (r, st') ->
    reaches SS st' cs.

(** Contract of a stateful solver: after every history, adding a CNF works, and solving
    answers for exactly the clauses added so far together with the temporary cube and clause
    of this call, with models defined up to the largest variable. *)
Definition stateful_correct (SS : StatefulSolver) : Prop :=
  forall st cs, reaches SS st cs ->
    (forall f, api_cnf f -> cnf_legal f -> exists st', ss_add_cnf SS st f = Ok st') /\
    (forall cube clause,
       (forall q, cube = Some q -> api_cube q /\ cube_legal q) ->
       (forall c, clause = Some c -> api_clause c /\ clause_legal c) ->
       let all := cs ++ temp_clauses cube clause in
       (exists asg st', ss_solve SS st cube clause = Ok (Sat asg, st') /\
          satisfies_clauses asg all /\ defined_upto asg (max_var all)) \/
       (exists st', ss_solve SS st cube clause = Ok (UnSat, st') /\ ~ satisfiable all)).

(** Weaker: every call may also panic, and models may leave variables out. *)
Definition stateful_sound (SS : StatefulSolver) : Prop :=
  forall st cs, reaches SS st cs ->
    (forall f, api_cnf f -> cnf_legal f -> ss_add_cnf SS st f <> OutOfFuel) /\
    (forall cube clause,
       (forall q, cube = Some q -> api_cube q /\ cube_legal q) ->
       (forall c, clause = Some c -> api_clause c /\ clause_legal c) ->
       let all := cs ++ temp_clauses cube clause in
       match ss_solve SS st cube clause with
       | Ok (Sat asg, _) => satisfies_clauses asg all
       | Ok (UnSat, _) => ~ satisfiable all
       | Panic => True
       | OutOfFuel => False
       end).

(** The permutations chosen by the environment are permutations. *)
Definition random_ok (R : Random) : Prop := forall n A (l : list A), Permutation (R n A l) l.
Definition order_ok {A} (order : list A -> list A) : Prop := forall l, Permutation (order l) l.
