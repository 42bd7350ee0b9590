(** Shared vocabulary of the model: outcomes of Rust functions, build profiles,
    indexing, list-sets, sorting and decimal text. *)
From Coq Require Export List NArith ZArith Lia Bool Permutation Arith.
From Coq Require Strings.String Strings.Ascii.
Export ListNotations.
Open Scope list_scope.

(** Outcome of running a Rust function.  [Panic] stands for any Rust panic
    (panic!, assert!, unwrap on None, index out of bounds, and in debug builds
    debug_assert! and integer overflow).  [OutOfFuel] is only produced by loops that
    were given too little fuel and has no Rust counterpart.  Every function of src/ that can
    panic or loop returns it (first use: src/formulas/literal.rs:28). *)
Inductive res (A : Type) : Type :=
| Ok (a : A)
| Panic
| OutOfFuel.
Arguments Ok {A} a.
Arguments Panic {A}.
Arguments OutOfFuel {A}.

(** Sequencing of Rust statements: a panic or missing fuel aborts the rest (first use:
    src/formulas/literal.rs:29-36). *)
Definition bind {A B} (m : res A) (k : A -> res B) : res B :=
  match m with
  | Ok a => k a
  | Panic => Panic
  | OutOfFuel => OutOfFuel
  end.

Notation "x <- e ;; k" := (bind e (fun x => k))
  (at level 100, e at next level, right associativity).
Notation "' p <- e ;; k" := (bind e (fun x => match x with p => k end))
  (at level 100, p pattern, e at next level, right associativity).

(** Cargo build profile: [Debug] has debug assertions and overflow checks,
    [Release] has neither (arithmetic wraps).  Cargo.toml:5-50 has no profile section, so both are
    the defaults. *)
Inductive build := Debug | Release.

(** Rust [debug_assert!], e.g. src/formulas/literal.rs:29-33. *)
Definition debug_assert (b : build) (c : bool) : res unit :=
  match b with
  | Debug => if c then Ok tt else Panic
  | Release => Ok tt
  end.

(** Rust [assert!], e.g. src/models/and_inverter_graph/aig_node.rs:49. *)
Definition assert_ (c : bool) : res unit := if c then Ok tt else Panic.

(** Rust [Option::unwrap], e.g. src/algorithms/formula_logic.rs:88. *)
Definition unwrap {A} (o : option A) : res A :=
  match o with Some a => Ok a | None => Panic end.

(** Rust indexing [v[i]] with a [usize] index, e.g.
    src/models/and_inverter_graph/getting.rs:36. *)
Definition index {A} (l : list A) (i : N) : res A :=
  unwrap (nth_error l (N.to_nat i)).

(** Rust indexing with a small index (frame numbers), e.g.
    src/algorithms/proof/ic3_stateless_solver.rs:102. *)
Definition indexn {A} (l : list A) (i : nat) : res A := unwrap (nth_error l i).

(** 2^32: the number of [u32] values ([VariableType], src/formulas/literal.rs:12). *)
Definition u32_mod : N := 4294967296%N.
(** [u32::MAX >> 1] (src/formulas/literal.rs:31). *)
Definition u31_max : N := 2147483647%N.
(** [usize::MAX] on a 64-bit target (src/models/and_inverter_graph/aig_node.rs:53-56). *)
Definition usize_max : N := 18446744073709551615%N.

(** [a + b] on [u32] (features.rs:29, bmc.rs:112): panics on overflow in debug, wraps in release. *)
Definition u32_add (b : build) (x y : N) : res N :=
  if (x + y <? u32_mod)%N then Ok (x + y)%N
  else match b with Debug => Panic | Release => Ok ((x + y) mod u32_mod)%N end.

(** [a * b] on [u32] (features.rs:62,73,86): panics on overflow in debug, wraps in release. *)
Definition u32_mul (b : build) (x y : N) : res N :=
  if (x * y <? u32_mod)%N then Ok (x * y)%N
  else match b with Debug => Panic | Release => Ok ((x * y) mod u32_mod)%N end.

(** Length as a number ([Vec::len], e.g. src/formulas/clause.rs:34). *)
Definition lenN {A} (l : list A) : N := N.of_nat (length l).

(** Rust [for x in l { ... }] where the body may panic: results collected in order, e.g.
    src/models/and_inverter_graph/getting.rs:35-38. *)
Fixpoint mapM {A B} (f : A -> res B) (l : list A) : res (list B) :=
  match l with
  | [] => Ok []
  | x :: r => y <- f x ;; ys <- mapM f r ;; Ok (y :: ys)
  end.

(** Rust [for x in l { acc = f(acc, x) }] where the body may panic, e.g.
    src/solvers/sat/assignment.rs:42-50. *)
Fixpoint foldM {A S} (f : S -> A -> res S) (l : list A) (s : S) : res S :=
  match l with
  | [] => Ok s
  | x :: r => s' <- f s x ;; foldM f r s'
  end.

(** Insertion into a sorted list, for [sort] below (src/formulas/clause.rs:29,82,
    src/formulas/cube.rs:27, src/formulas/cnf.rs:216). *)
Fixpoint insert_sorted {A} (leb : A -> A -> bool) (x : A) (l : list A) : list A :=
  match l with
  | [] => [x]
  | y :: r => if leb x y then x :: l else y :: insert_sorted leb x r
  end.

(** Insertion sort: stands for Rust's [sort] and [sort_by] (src/formulas/clause.rs:29,82,
    src/formulas/cube.rs:27, src/formulas/cnf.rs:216); all uses have an order in which equal
    keys are identical. *)
Definition sort {A} (leb : A -> A -> bool) (l : list A) : list A :=
  fold_right (insert_sorted leb) [] l.

(** A [HashSet<T>] is a duplicate-free list; its order is not observable.  [contains], e.g.
    src/formulas/cnf.rs:63. *)
Definition set_mem {A} (eqb : A -> A -> bool) (x : A) (l : list A) : bool :=
  existsb (eqb x) l.

(** [HashSet::insert], e.g. src/formulas/cnf.rs:59. *)
Definition set_insert {A} (eqb : A -> A -> bool) (l : list A) (x : A) : list A :=
  if set_mem eqb x l then l else l ++ [x].

(** Lexicographic comparison of vectors of numbers (derived [Ord] of [Vec],
    src/formulas/clause.rs:17). *)
Fixpoint list_cmp (a b : list N) : comparison :=
  match a, b with
  | [], [] => Eq
  | [], _ => Lt
  | _, [] => Gt
  | x :: a', y :: b' =>
      match (x ?= y)%N with
      | Eq => list_cmp a' b'
      | c => c
      end
  end.

(** Equality of vectors of numbers (derived [PartialEq] of [Vec], src/formulas/clause.rs:17). *)
Fixpoint list_eqb (a b : list N) : bool :=
  match a, b with
  | [], [] => true
  | x :: a', y :: b' => (x =? y)%N && list_eqb a' b'
  | _, _ => false
  end.

(** Text is a list of bytes ([String], [Vec<u8>], e.g.
    src/models/and_inverter_graph/construction.rs:404). *)
Definition bytes := list N.

(** Bytes of a Coq string literal (used only for constant text, e.g.
    src/formulas/cnf.rs:224). *)
Definition bs (s : String.string) : bytes :=
  map Ascii.N_of_ascii (String.list_ascii_of_string s).

(** The digits of an unsigned number, least significant first onto [acc] (see [dec]; used at
    src/formulas/literal.rs:74-82). *)
Fixpoint dec_aux (fuel : nat) (n : N) (acc : bytes) : bytes :=
  match fuel with
  | O => acc
  | S f =>
      let d := (48 + n mod 10)%N in
      if (n <? 10)%N then d :: acc else dec_aux f (n / 10)%N (d :: acc)
  end.

(** Decimal printing of an unsigned number ([u32]/[usize] Display), e.g.
    src/formulas/literal.rs:74-82, src/models/and_inverter_graph/conversion.rs:30-38. *)
Definition dec (n : N) : bytes := dec_aux (S (N.size_nat n)) n [].

(** Rust [v.join(sep)] on text, e.g. src/formulas/clause.rs:87. *)
Fixpoint join (sep : bytes) (l : list bytes) : bytes :=
  match l with
  | [] => []
  | [x] => x
  | x :: r => x ++ sep ++ join sep r
  end.

(** Rust [v[i] = x] (no effect outside the vector; callers index first), e.g.
    src/algorithms/proof/pdr.rs:297-299. *)
Fixpoint set_nth {A} (l : list A) (i : nat) (x : A) : list A :=
  match l, i with
  | [], _ => []
  | _ :: r, O => x :: r
  | y :: r, S i' => y :: set_nth r i' x
  end.

(** Rust [Vec::swap_remove(i)]: the removed element and the remaining vector
    (src/algorithms/proof/ic3_stateless_solver.rs:210, pdr.rs:387,432). *)
Definition swap_remove {A} (l : list A) (i : nat) : res (A * list A) :=
  x <- indexn l i ;;
  Ok (x, removelast (set_nth l i (last l x))).

(** Rust [slice::swap(i, j)] (src/algorithms/proof/ic3_stateless_solver.rs:218, pdr.rs:367,450). *)
Definition swap {A} (l : list A) (i j : nat) : res (list A) :=
  x <- indexn l i ;;
  y <- indexn l j ;;
  Ok (set_nth (set_nth l i y) j x).

(** Source of randomness (hash seeds, [thread_rng], heap layout): the [n]-th draw is a
    permutation of whatever list it is applied to (src/algorithms/proof/
    ic3_stateless_solver.rs:207, ic3_stateful_solver.rs:293, pdr.rs:428). *)
Definition Random := nat -> forall A : Type, list A -> list A.
