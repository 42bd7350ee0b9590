(** Property C49: which files are accepted, and what is read from them. *)
From Verif Require Import Base Aig AigParse AigPrint Spec SpecAig SpecText SpecAiger SpecFile
  FileFacts AigThms TailFacts.
Open Scope N_scope.
Import String.StringSyntax.
Arguments bs s%string_scope.

(* ------------------------------------------------------------------------ C49 *)

(** A vector of bytes is accepted exactly if it is a file in the format of SpecFile.v. *)
Theorem C49_accepts_exactly :
  forall v, Forall (fun x => x < 256) v ->
  ((exists a, from_vector_of_bytes v = Ok a) <-> exists c syms comment, file v c syms comment).
Proof. exact accepts_exactly. Qed.
Print Assumptions C49_accepts_exactly.

(** The format is unambiguous. *)
Theorem C49_unambiguous :
  forall v c c' syms syms' comment comment', Forall (fun x => x < 256) v ->
  file v c syms comment -> file v c' syms' comment' -> c = c'.
Proof. exact file_unambiguous. Qed.
Print Assumptions C49_unambiguous.

(** The graph read from a file represents its circuit.  The exported text consists of the
    circuit, every position whose variable has a name with the last such name, and the
    comment without bytes 0 and up to line ends at its end. *)
Theorem C49_content :
  forall v c syms comment, Forall (fun x => x < 256) v -> file v c syms comment ->
  exists a head table ending, from_vector_of_bytes v = Ok a /\ represents a c /\
    get_aag_string a = Ok (head ++ symbol_text table ++ ending) /\
    read_aag head = Some (aag_of c, [[]]) /\
    NoDup (map fst table) /\
    (forall k p name, In (k, p, name) table <->
       p < kind_count c k /\ name <> [] /\ last_entry c syms k p name) /\
    match comment with
    | None => ending = []
    | Some text => exists t', ending = bs "c" ++ [10] ++ t' /\ same_but_line_ends t' (without_nul text)
    end.
Proof. exact file_export. Qed.
Print Assumptions C49_content.

Example C49_case :
  Forall (fun x => x < 256) odd_file /\ file odd_file odd_circuit odd_symbols (Some []) /\
  (exists a, from_vector_of_bytes odd_file = Ok a /\
    get_aag_string a = Ok (bs "aag 3 1 1 2 1" ++ [10] ++ bs "2" ++ [10] ++ bs "4 6" ++ [10] ++
      bs "6" ++ [10] ++ bs "6" ++ [10] ++ bs "6 4 2" ++ [10] ++ bs "o0 " ++ [195; 169; 10] ++
      bs "o1 " ++ [195; 169; 10] ++ bs "c" ++ [10])) /\
  (forall k p name, last_entry odd_circuit odd_symbols k p name ->
     kind_count odd_circuit k <= p \/ name = [195; 169]) /\
  (** A name that ends inside a character, a name with a blank. *)
  from_vector_of_bytes (bs "aig 1 1 0 0 0" ++ [10] ++ bs "i0 " ++ [195; 10]) = Panic /\
  from_vector_of_bytes (bs "aig 1 1 0 0 0" ++ [10] ++ bs "i0 a b" ++ [10]) = Panic.
Proof.
  split; [repeat constructor|]. split; [exact odd_file_ok|].
  split; [eexists; split; vm_compute; reflexivity|]. split; [exact odd_names|].
  split; vm_compute; reflexivity.
Qed.
