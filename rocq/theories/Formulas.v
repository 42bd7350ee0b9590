(** Model of src/formulas: literals, clauses, cubes and CNF formulas. *)
From Coq Require Strings.String.
From Verif Require Import Base.
Open Scope N_scope.
Import String.StringSyntax.
Arguments bs s%string_scope.

(* ---------------------------------------------------------------- literals *)

(** src/formulas/literal.rs:12,18-21.  A literal is its [u32] code
    [literal_number] = 2 * variable + sign; variables are [u32]. *)
Definition Literal := N.

(** src/formulas/literal.rs:28-37, [Literal::new].  [<<] drops the bits above 2^32. *)
Definition literal_new (b : build) (number : N) : res Literal :=
  _ <- debug_assert b (0 <? number) ;;
  _ <- debug_assert b (number <=? u31_max) ;;
  Ok (N.shiftl number 1 mod u32_mod).

(** src/formulas/literal.rs:60-68, [impl Not for Literal]. *)
Definition literal_not (l : Literal) : Literal := N.lxor l 1.

(** src/formulas/literal.rs:39-45, [negate_if_true]. *)
Definition negate_if_true (l : Literal) (is_negated : bool) : Literal :=
  if is_negated then literal_not l else l.

(** src/formulas/literal.rs:47-49, [get_number]. *)
Definition get_number (l : Literal) : N := N.shiftr l 1.

(** src/formulas/literal.rs:51-53, [is_negated]. *)
Definition is_negated (l : Literal) : bool := l mod 2 =? 1.

(** src/formulas/literal.rs:74-82, [Display for Literal]. *)
Definition literal_display (l : Literal) : bytes :=
  if is_negated l then bs "-" ++ dec (get_number l) else dec (get_number l).

(* ----------------------------------------------------------- clauses, cubes *)

(** src/formulas/clause.rs:17-20. *)
Record Clause := mkClause { clause_lits : list Literal }.

(** src/formulas/cube.rs:15-18. *)
Record Cube := mkCube { cube_lits : list Literal }.

(** src/formulas/clause.rs:27-31, [Clause::new]. *)
Definition clause_new (literals : list Literal) : Clause :=
  mkClause (sort N.leb literals).

(** src/formulas/cube.rs:25-29, [Cube::new]. *)
Definition cube_new (literals : list Literal) : Cube :=
  mkCube (sort N.leb literals).

(** src/formulas/clause.rs:33-35, [len]. *)
Definition clause_len (c : Clause) : N := lenN (clause_lits c).

(** src/formulas/clause.rs:37-39, [is_empty]. *)
Definition clause_is_empty (c : Clause) : bool :=
  match clause_lits c with [] => true | _ => false end.

(** src/formulas/clause.rs:41-43, [iter]. *)
Definition clause_iter (c : Clause) : list Literal := clause_lits c.

(** src/formulas/cube.rs:31-33, [len]. *)
Definition cube_len (q : Cube) : N := lenN (cube_lits q).

(** src/formulas/cube.rs:35-37, [is_empty]. *)
Definition cube_is_empty (q : Cube) : bool :=
  match cube_lits q with [] => true | _ => false end.

(** src/formulas/cube.rs:39-41, [iter]. *)
Definition cube_iter (q : Cube) : list Literal := cube_lits q.

(** Rust [slice::last], used at src/formulas/clause.rs:46. *)
Fixpoint last_opt {A} (l : list A) : option A :=
  match l with
  | [] => None
  | [x] => Some x
  | _ :: r => last_opt r
  end.

(** src/formulas/clause.rs:45-50, [get_highest_variable_number]. *)
Definition clause_highest (c : Clause) : N :=
  match last_opt (clause_lits c) with
  | Some l => get_number l
  | None => 0
  end.

(** src/formulas/clause.rs:63-73, [impl Not for Clause]. *)
Definition clause_not (c : Clause) : Cube :=
  cube_new (map literal_not (clause_iter c)).

(** src/formulas/cube.rs:56-66, [impl Not for Cube]. *)
Definition cube_not (q : Cube) : Clause :=
  clause_new (map literal_not (cube_iter q)).

(** Derived [PartialEq], src/formulas/clause.rs:17. *)
Definition clause_eqb (a b : Clause) : bool := list_eqb (clause_lits a) (clause_lits b).

(** Derived [PartialEq], src/formulas/cube.rs:15. *)
Definition cube_eqb (a b : Cube) : bool := list_eqb (cube_lits a) (cube_lits b).

(** Derived [Ord] of Literal (src/formulas/literal.rs:18): the order of the codes. *)
Definition literal_cmp (l l' : Literal) : comparison := l ?= l'.

(** Derived [Ord] of Clause (src/formulas/clause.rs:17): the order of the vectors. *)
Definition clause_cmp (a b : Clause) : comparison := list_cmp (clause_lits a) (clause_lits b).

(** Derived [Ord] of Cube (src/formulas/cube.rs:15). *)
Definition cube_cmp (a b : Cube) : comparison := list_cmp (cube_lits a) (cube_lits b).

(** src/formulas/clause.rs:79-89, [Display for Clause] (sorts again before printing). *)
Definition clause_display (c : Clause) : bytes :=
  join (bs " ") (map literal_display (sort N.leb (clause_lits c))) ++ bs " 0".

(* ---------------------------------------------------------------------- CNF *)

(** src/formulas/cnf.rs:14-18.  The [HashSet<Clause>] is a duplicate-free list. *)
Record CNF := mkCNF { cnf_max : N; cnf_clauses : list Clause }.

(** src/formulas/cnf.rs:25-30 (and Default, 187-191). *)
Definition cnf_new : CNF := mkCNF 0 [].

(** src/formulas/cnf.rs:54-60, [add_clause]. *)
Definition cnf_add_clause (f : CNF) (c : Clause) : CNF :=
  mkCNF (N.max (cnf_max f) (clause_highest c))
        (set_insert clause_eqb (cnf_clauses f) c).

(** src/formulas/cnf.rs:62-64, [contains]. *)
Definition cnf_contains (f : CNF) (c : Clause) : bool :=
  set_mem clause_eqb c (cnf_clauses f).

(** src/formulas/cnf.rs:66-68, [get_max_variable_number]. *)
Definition cnf_get_max (f : CNF) : N := cnf_max f.

(** src/formulas/cnf.rs:94-96, [len]. *)
Definition cnf_len (f : CNF) : N := lenN (cnf_clauses f).

(** src/formulas/cnf.rs:122-124, [is_empty]. *)
Definition cnf_is_empty (f : CNF) : bool :=
  match cnf_clauses f with [] => true | _ => false end.

(** src/formulas/cnf.rs:177-180, [append]. *)
Definition cnf_append (f g : CNF) : CNF :=
  mkCNF (N.max (cnf_max f) (cnf_max g))
        (fold_left (set_insert clause_eqb) (cnf_clauses g) (cnf_clauses f)).

(** src/formulas/cnf.rs:197-201, [PartialEq]: equality of hash sets
    (same size and every element of one is in the other). *)
Definition cnf_eqb (f g : CNF) : bool :=
  (lenN (cnf_clauses f) =? lenN (cnf_clauses g)) &&
  forallb (fun c => set_mem clause_eqb c (cnf_clauses g)) (cnf_clauses f).

(** src/formulas/cnf.rs:216, the comparison closure
    [a.len().cmp(&b.len()).then(a.cmp(b))] as a "less or equal". *)
Definition clause_print_leb (a b : Clause) : bool :=
  match (clause_len a ?= clause_len b) with
  | Lt => true
  | Gt => false
  | Eq => match clause_cmp a b with Gt => false | _ => true end
  end.

(** src/formulas/cnf.rs:213-229, [Display for CNF].  [order] is the hash iteration order. *)
Definition cnf_display (order : list Clause -> list Clause) (f : CNF) : bytes :=
  bs "p cnf " ++ dec (cnf_max f) ++ bs " " ++ dec (cnf_len f) ++ [10] ++
  join [10] (map clause_display (sort clause_print_leb (order (cnf_clauses f)))).

(** src/formulas/clause.rs:52-56, [Clause::to_cnf]. *)
Definition clause_to_cnf (c : Clause) : CNF := cnf_add_clause cnf_new c.

(** src/formulas/cube.rs:43-49, [Cube::to_cnf]. *)
Definition cube_to_cnf (q : Cube) : CNF :=
  fold_left (fun f l => cnf_add_clause f (clause_new [l])) (cube_lits q) cnf_new.

(** src/formulas/cube.rs:72-77, [Display for Cube]. *)
Definition cube_display (order : list Clause -> list Clause) (q : Cube) : bytes :=
  cnf_display order (cube_to_cnf q).
