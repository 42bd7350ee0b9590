(** Specification: the AIGER file formats.  A writer for binary files (with the freedom the
    format gives), symbol tables, and a reader for ASCII files. *)
From Verif Require Import Base Spec SpecAig SpecText.
Open Scope N_scope.
Import String.StringSyntax.
Arguments bs s%string_scope.

(** Variable-length encoding of a number: 7 bits per byte, least significant first, the
    highest bit set on all bytes but the last. *)
Fixpoint delta_bytes (fuel : nat) (x : N) : bytes :=
  match fuel with
  | O => []
  | S f => if x <? 128 then [x] else (128 + x mod 128) :: delta_bytes f (x / 128)
  end.
Definition encode_delta (x : N) : bytes := delta_bytes (S (N.size_nat x)) x.

(** The freedom in writing a file: how many of the optional header fields B, C, J to write
    even if they are zero, and which zero resets to write out. *)
Record style := mkStyle { st_fields : nat; st_reset : nat -> bool }.

Definition words (ws : list bytes) : bytes := join [32] ws.
Definition line (ws : list bytes) : bytes := words ws ++ [10].

(** Header fields that have to be present: up to the last nonzero one. *)
Definition needed_fields (c : circuit) : nat :=
  if negb (lenN (c_constraints c) =? 0) then 2%nat
  else if negb (lenN (c_bad c) =? 0) then 1%nat else 0%nat.

Definition header_numbers (st : style) (c : circuit) : list N :=
  [c_max c; c_inputs c; lenN (c_latches c); lenN (c_outputs c); lenN (c_ands c)] ++
  firstn (Nat.max (st_fields st) (needed_fields c))
    [lenN (c_bad c); lenN (c_constraints c); 0].

Definition latch_words (st : style) (j : nat) (x : N * N) : list bytes :=
  dec (fst x) :: (if (snd x =? 0) && negb (st_reset st j) then [] else [dec (snd x)]).

Definition number_items {A} (l : list A) : list (nat * A) := combine (seq 0 (length l)) l.

Definition gate_bytes (c : circuit) (e : nat * (N * N)) : bytes :=
  let '(j, (r0, r1)) := e in
  encode_delta (2 * gate_var c j - r0) ++ encode_delta (r0 - r1).

(** The binary file up to the end of the gates. *)
Definition encode (st : style) (c : circuit) : bytes :=
  line (bs "aig" :: map dec (header_numbers st c)) ++
  concat (map (fun e => line (latch_words st (fst e) (snd e))) (number_items (c_latches c))) ++
  concat (map (fun l => line [dec l]) (c_outputs c ++ c_bad c ++ c_constraints c)) ++
  concat (map (gate_bytes c) (number_items (c_ands c))).

(** A symbol table entry: kind, position, name. *)
Inductive kind := K_input | K_latch | K_output | K_bad | K_constraint.
Definition kind_letter (k : kind) : bytes :=
  match k with
  | K_input => bs "i" | K_latch => bs "l" | K_output => bs "o"
  | K_bad => bs "b" | K_constraint => bs "c"
  end.
Definition kind_count (c : circuit) (k : kind) : N :=
  match k with
  | K_input => c_inputs c
  | K_latch => lenN (c_latches c)
  | K_output => lenN (c_outputs c)
  | K_bad => lenN (c_bad c)
  | K_constraint => lenN (c_constraints c)
  end.
(** The variables of the positions of a kind, and the variable of one position. *)
Definition kind_list (c : circuit) (k : kind) : list N :=
  match k with
  | K_input => numbers 1 (c_inputs c)
  | K_latch => numbers (c_inputs c + 1) (lenN (c_latches c))
  | K_output => map lit_var (c_outputs c)
  | K_bad => map lit_var (c_bad c)
  | K_constraint => map lit_var (c_constraints c)
  end.
Definition target (c : circuit) (k : kind) (p : N) : N := nth (N.to_nat p) (kind_list c k) 0.

Definition symbol := (kind * N * bytes)%type.

Definition symbol_line (s : symbol) : bytes :=
  let '(k, p, name) := s in line [kind_letter k ++ dec p; name].
Definition symbol_text (l : list symbol) : bytes := concat (map symbol_line l).

(** UTF-8: the bytes of a Unicode scalar value (RFC 3629). *)
Definition scalar (x : N) : Prop := x < 55296 \/ 57344 <= x < 1114112.
Definition utf8_char (x : N) : bytes :=
  if x <? 128 then [x]
  else if x <? 2048 then [192 + x / 64; 128 + x mod 64]
  else if x <? 65536 then [224 + x / 4096; 128 + (x / 64) mod 64; 128 + x mod 64]
  else [240 + x / 262144; 128 + (x / 4096) mod 64; 128 + (x / 64) mod 64; 128 + x mod 64].
Definition utf8 (l : list N) : bytes := concat (map utf8_char l).

(** Names: Unicode text that is not empty, without blanks (32) and line ends (10). *)
Definition name_ok (name : bytes) : Prop :=
  exists l, name = utf8 l /\ l <> [] /\ Forall (fun x => scalar x /\ x <> 10 /\ x <> 32) l.
Definition symbol_ok (c : circuit) (s : symbol) : Prop :=
  let '(k, p, name) := s in p < kind_count c k /\ name_ok name.

(** A comment section: a line "c" and then any Unicode text. *)
Definition comment_text (o : option bytes) : bytes :=
  match o with None => [] | Some text => line [bs "c"] ++ text end.
Definition comment_ok (o : option bytes) : Prop :=
  match o with None => True | Some text => exists l, text = utf8 l /\ Forall scalar l end.

(** Sizes a file can have: gate operands must be encodable in 38 bits. *)
Definition file_fits (c : circuit) : Prop :=
  c_max c < 2 ^ 37 /\ lenN (c_outputs c) < 2 ^ 60 /\ lenN (c_bad c) < 2 ^ 60 /\
  lenN (c_constraints c) < 2 ^ 60.

(* ------------------------------------------------------------- ASCII reader *)

(** Read a line of exactly the given number of numbers. *)
Definition read_numbers (s : bytes) : option (list N) := read_all read_number (words_of s).

Definition read_one (s : bytes) : option N :=
  match read_numbers s with Some [x] => Some x | _ => None end.
(** A latch line: literal, next, optional reset (0 if missing). *)
Definition read_latch (s : bytes) : option (N * N * N) :=
  match read_numbers s with
  | Some [l; n] => Some (l, n, 0)
  | Some [l; n; r] => Some (l, n, r)
  | _ => None
  end.
Definition read_gate (s : bytes) : option (N * N * N) :=
  match read_numbers s with Some [l; r0; r1] => Some (l, r0, r1) | _ => None end.

(** Apply a line reader to the next [n] lines; the rest is returned. *)
Definition read_section {A} (f : bytes -> option A) (n : N) (ls : list bytes)
  : option (list A * list bytes) :=
  if (lenN ls <? n) then None
  else match read_all f (firstn (N.to_nat n) ls) with
       | Some xs => Some (xs, skipn (N.to_nat n) ls)
       | None => None
       end.

Definition read_header (s : bytes) : option (N * N * N * N * N * N * N) :=
  match words_of s with
  | w :: ws =>
      if list_eqb w (bs "aag") then
        match read_all read_number ws with
        | Some [m; i; l; o; a] => Some (m, i, l, o, a, 0, 0)
        | Some [m; i; l; o; a; b] => Some (m, i, l, o, a, b, 0)
        | Some [m; i; l; o; a; b; c] => Some (m, i, l, o, a, b, c)
        | _ => None
        end
      else None
  | [] => None
  end.

(** What an .aag file says: M, the input literals, the latches (literal, next, reset), the
    outputs, the bad literals, the constraints, the gates (literal, operands). *)
Record aag := mkAag {
  g_max : N;
  g_inputs : list N;
  g_latches : list (N * N * N);
  g_outputs : list N;
  g_bad : list N;
  g_constraints : list N;
  g_ands : list (N * N * N) }.

(** Read an .aag file: header, inputs, latches, outputs, bad, constraints, gates.  The lines
    after the gates (symbols and comments) are returned. *)
Definition read_aag (s : bytes) : option (aag * list bytes) :=
  match lines_of s with
  | [] => None
  | first :: ls =>
      match read_header first with
      | None => None
      | Some (m, i, l, o, a, b, c) =>
          match read_section read_one i ls with
          | None => None
          | Some (ins, ls) =>
          match read_section read_latch l ls with
          | None => None
          | Some (lats, ls) =>
          match read_section read_one o ls with
          | None => None
          | Some (outs, ls) =>
          match read_section read_one b ls with
          | None => None
          | Some (bads, ls) =>
          match read_section read_one c ls with
          | None => None
          | Some (cstr, ls) =>
          match read_section read_gate a ls with
          | None => None
          | Some (gs, ls) => Some (mkAag m ins lats outs bads cstr gs, ls)
          end end end end end end
      end
  end.

(** The .aag view of a circuit. *)
Definition aag_of (c : circuit) : aag :=
  mkAag (c_max c)
    (map (fun v => 2 * v) (numbers 1 (c_inputs c)))
    (map (fun e => (2 * latch_var c (fst e), fst (snd e), snd (snd e)))
       (number_items (c_latches c)))
    (c_outputs c) (c_bad c) (c_constraints c)
    (map (fun e => (2 * gate_var c (fst e), fst (snd e), snd (snd e)))
       (number_items (c_ands c))).

(** The symbol lines at the start of a list of lines: a letter i, l, o, b or c, a number,
    a blank, a name (which may contain blanks). *)
Definition read_kind (x : N) : option kind :=
  if x =? 105 then Some K_input else if x =? 108 then Some K_latch
  else if x =? 111 then Some K_output else if x =? 98 then Some K_bad
  else if x =? 99 then Some K_constraint else None.

Fixpoint split_first_blank (s : bytes) : option (bytes * bytes) :=
  match s with
  | [] => None
  | x :: r => if x =? 32 then Some ([], r)
              else option_map (fun p => (x :: fst p, snd p)) (split_first_blank r)
  end.

Definition read_symbol (s : bytes) : option symbol :=
  match s with
  | [] => None
  | x :: r =>
      match read_kind x, split_first_blank r with
      | Some k, Some (num, name) => option_map (fun p => (k, p, name)) (read_number num)
      | _, _ => None
      end
  end.

(** Symbols up to the first line that is not one (the comment section or the end). *)
Fixpoint read_symbols (ls : list bytes) : list symbol :=
  match ls with
  | [] => []
  | s :: r => match read_symbol s with Some x => x :: read_symbols r | None => [] end
  end.

(** The number a complete variable-length encoding stands for: bytes 128.. continue, a byte
    below 128 ends. *)
Fixpoint delta_value (l : bytes) : option N :=
  match l with
  | [] => None
  | [x] => if x <? 128 then Some x else None
  | x :: r => if x <? 128 then None
              else option_map (fun n => (x - 128) + 128 * n) (delta_value r)
  end.
