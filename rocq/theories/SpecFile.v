(** Specification: which byte strings are binary AIGER files, and of which circuit, symbols and
    comment.  Unlike the writer in SpecAiger.v this relation covers every spelling: leading
    zeros and a plus sign in numbers, optional header fields and resets, delta encodings that
    are not the shortest, a missing line end after the last symbol, an empty comment. *)
From Verif Require Import Base Spec SpecAig SpecText SpecAiger.
Open Scope N_scope.
Import String.StringSyntax.
Arguments bs s%string_scope.

(** The UTF-8 bytes of a sequence of Unicode scalar values. *)
Definition unicode (t : bytes) : Prop := exists l, Forall scalar l /\ t = utf8 l.

(** A decimal number below 2^64, possibly after a '+' (43). *)
Definition numeral (n : N) (t : bytes) : Prop :=
  exists digits, (t = digits \/ t = 43 :: digits) /\ read_number digits = Some n /\ n < 2 ^ 64.

(** Pieces [t1 t2 ...] of the text belong to the items one by one. *)
Definition pieces {A} (piece : A -> bytes -> Prop) (l : list A) (t : bytes) : Prop :=
  exists ts, Forall2 piece l ts /\ t = concat ts.

(** Header: "aig" and five to eight of the numbers M I L O A B C J; those left out are 0, and
    J is always 0. *)
Definition header_fields (c : circuit) : list N :=
  [c_max c; c_inputs c; lenN (c_latches c); lenN (c_outputs c); lenN (c_ands c);
   lenN (c_bad c); lenN (c_constraints c); 0].
Definition header_piece (c : circuit) (t : bytes) : Prop :=
  exists k ts, (5 <= k <= 8)%nat /\ Forall (fun n => n = 0) (skipn k (header_fields c)) /\
    Forall2 numeral (firstn k (header_fields c)) ts /\ t = line (bs "aig" :: ts).

(** A latch: its next literal, and its reset literal unless that is 0. *)
Definition latch_piece (x : N * N) (t : bytes) : Prop :=
  exists w, numeral (fst x) w /\
    ((snd x = 0 /\ t = line [w]) \/ exists v, numeral (snd x) v /\ t = line [w; v]).

Definition literal_piece (l : N) (t : bytes) : Prop := exists w, numeral l w /\ t = line [w].

(** At most six bytes and 38 bits. *)
Definition delta_piece (d : N) (t : bytes) : Prop :=
  delta_value t = Some d /\ (length t <= 6)%nat /\ d < 2 ^ 38.

Definition gate_piece (c : circuit) (e : nat * (N * N)) (t : bytes) : Prop :=
  let '(j, (r0, r1)) := e in
  exists t0 t1, t = t0 ++ t1 /\ delta_piece (2 * gate_var c j - r0) t0 /\ delta_piece (r0 - r1) t1.

(** A symbol without its line end: the letter and number of a position, a blank, a name that is
    Unicode text without blanks and line ends (it may be empty). *)
Definition name_text (name : bytes) : Prop := unicode name /\ ~ In 10 name /\ ~ In 32 name.
Definition symbol_piece (c : circuit) (s : symbol) (t : bytes) : Prop :=
  let '(k, p, name) := s in
  p < kind_count c k /\ name_text name /\
  exists w, numeral p w /\ t = kind_letter k ++ w ++ [32] ++ name.

(** Symbols, one per line, and then nothing (the last line end may be missing), or a comment:
    a line "c" followed by any Unicode text (its line end may be missing if no text follows). *)
Definition tail_text (c : circuit) (syms : list symbol) (comment : option bytes) (t : bytes) : Prop :=
  exists ts, Forall2 (symbol_piece c) syms ts /\
    let table := concat (map (fun w => w ++ [10]) ts) in
    match comment with
    | None => t = table \/ (syms <> [] /\ t ++ [10] = table)
    | Some text => unicode text /\ (t = table ++ bs "c" ++ [10] ++ text \/
                                    (text = [] /\ t = table ++ bs "c"))
    end.

(** Vectors of at most 2^63 - 1 bytes. *)
Definition vectors_fit (c : circuit) : Prop :=
  circuit_fits c /\ lenN (c_outputs c) * 8 <= 9223372036854775807 /\
  lenN (c_bad c) * 8 <= 9223372036854775807 /\ lenN (c_constraints c) * 8 <= 9223372036854775807.

(** The whole file. *)
Definition file (v : bytes) (c : circuit) (syms : list symbol) (comment : option bytes) : Prop :=
  circuit_wf c /\ vectors_fit c /\
  exists t0 t1 t2 t3 t4,
    header_piece c t0 /\
    pieces latch_piece (c_latches c) t1 /\
    pieces literal_piece (c_outputs c ++ c_bad c ++ c_constraints c) t2 /\
    pieces (gate_piece c) (number_items (c_ands c)) t3 /\
    tail_text c syms comment t4 /\
    v = t0 ++ t1 ++ t2 ++ t3 ++ t4.

(** The name a position has after the whole table is read: names are kept per kind and
    variable, so the last entry for any position with the same variable counts. *)
Definition last_entry (c : circuit) (syms : list symbol) (k : kind) (p : N) (name : bytes) : Prop :=
  exists before p' after, syms = before ++ (k, p', name) :: after /\
    target c k p' = target c k p /\
    forall q other, In (k, q, other) after -> target c k q <> target c k p.

(** Equal up to line ends at the end. *)
Definition same_but_line_ends (t1 t2 : bytes) : Prop :=
  exists n m, t1 ++ repeat 10 n = t2 ++ repeat 10 m.

(** Without the bytes 0. *)
Definition without_nul (t : bytes) : bytes := filter (fun x => negb (x =? 0)) t.
