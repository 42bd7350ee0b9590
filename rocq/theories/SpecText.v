(** Specification: reading numbers, words and lines, and a reader for DIMACS CNF text. *)
From Verif Require Import Base.
Open Scope N_scope.

(** Split a text at every occurrence of a byte (always at least one piece). *)
Fixpoint split_on (sep : N) (s : bytes) : list bytes :=
  match s with
  | [] => [[]]
  | c :: r =>
      if c =? sep then [] :: split_on sep r
      else match split_on sep r with
           | [] => [[c]]
           | w :: ws => (c :: w) :: ws
           end
  end.

Definition nonempty (s : bytes) : bool := match s with [] => false | _ => true end.

(** Lines (separated by byte 10) and non-empty words (separated by byte 32, a blank). *)
Definition lines_of (s : bytes) : list bytes := split_on 10 s.
Definition words_of (s : bytes) : list bytes := filter nonempty (split_on 32 s).

(** A natural number in decimal: one or more bytes '0' (48) .. '9' (57). *)
Definition is_digit (c : N) : bool := (48 <=? c) && (c <=? 57).
Definition read_number (s : bytes) : option N :=
  if nonempty s && forallb is_digit s
  then Some (fold_left (fun n c => 10 * n + (c - 48)) s 0)
  else None.

(** An integer: a number, or '-' (45) followed by a number. *)
Definition read_integer (s : bytes) : option Z :=
  match s with
  | 45 :: r => option_map (fun n => (- Z.of_N n)%Z) (read_number r)
  | _ => option_map Z.of_N (read_number s)
  end.

Fixpoint read_all {A B} (f : A -> option B) (l : list A) : option (list B) :=
  match l with
  | [] => Some []
  | x :: r =>
      match f x, read_all f r with
      | Some y, Some ys => Some (y :: ys)
      | _, _ => None
      end
  end.

(** A DIMACS clause line: integers, the last one 0 and no other one 0. *)
Fixpoint end_at_zero (l : list Z) : option (list Z) :=
  match l with
  | [] => None
  | [z] => if (z =? 0)%Z then Some [] else None
  | z :: r => if (z =? 0)%Z then None else option_map (cons z) (end_at_zero r)
  end.

Definition read_clause_line (s : bytes) : option (list Z) :=
  match read_all read_integer (words_of s) with
  | Some zs => end_at_zero zs
  | None => None
  end.

(** DIMACS text: a line "p cnf <max variable> <number of clauses>" (the bytes of "p" and "cnf"
    are spelled out), then one clause per line; empty lines are ignored. *)
Definition read_dimacs (s : bytes) : option (N * N * list (list Z)) :=
  match lines_of s with
  | [] => None
  | first :: rest =>
      match words_of first with
      | [[112]; [99; 110; 102]; m; n] =>
          match read_number m, read_number n,
                read_all read_clause_line (filter nonempty rest) with
          | Some m, Some n, Some cs => Some (m, n, cs)
          | _, _, _ => None
          end
      | _ => None
      end
  end.

(** The DIMACS integer of a literal code: plus or minus the variable. *)
Definition dimacs_int (l : N) : Z := if N.odd l then (- Z.of_N (l / 2))%Z else Z.of_N (l / 2).
