(** Properties C14 - C21 and C47: reading, exporting and simulating and-inverter graphs. *)
From Verif Require Import Base Aig AigParse AigPrint Spec SpecAig SpecText SpecAiger
  AigFacts SimFacts ParseFacts EncodeFacts SymbolFacts PrintFacts AigThms.
Open Scope N_scope.
Import String.StringSyntax.
Arguments bs s%string_scope.

(* ------------------------------------------------------------------------ C14 *)

Theorem C14_delta_roundtrip :
  forall x rest, x < 2 ^ 38 -> read_delta (encode_delta x ++ rest) = Ok (x, rest).
Proof. exact read_delta_encode. Qed.
Print Assumptions C14_delta_roundtrip.

Theorem C14_delta_too_long :
  forall x rest, 2 ^ 38 <= x -> read_delta (encode_delta x ++ rest) = Panic.
Proof. exact read_delta_long. Qed.
Print Assumptions C14_delta_too_long.

Theorem C14_delta_truncated :
  forall x some more, encode_delta x = some ++ more -> more <> [] -> read_delta some = Panic.
Proof. exact read_delta_short. Qed.
Print Assumptions C14_delta_truncated.

(** Whatever is accepted is a complete encoding of the returned number. *)
Theorem C14_delta_sound :
  forall data d rest, Forall (fun x => x < 256) data -> read_delta data = Ok (d, rest) ->
  exists enc, data = enc ++ rest /\ delta_value enc = Some d /\ d < 2 ^ 38.
Proof. exact read_delta_value. Qed.
Print Assumptions C14_delta_sound.

Example C14_delta_case :
  encode_delta 300000 = [224; 167; 18] /\
  read_delta [224; 167; 18; 7] = Ok (300000, [7]) /\
  read_delta [224; 167] = Panic /\
  read_delta (encode_delta (2 ^ 38 - 1)) = Ok (2 ^ 38 - 1, []) /\
  read_delta (encode_delta (2 ^ 38)) = Panic.
Proof. vm_compute. repeat split. Qed.

(* ------------------------------------------------------------------------ C15 *)

Theorem C15_parse_inverts_encode :
  forall st c syms o, circuit_wf c -> file_fits c -> Forall (symbol_ok c) syms -> comment_ok o ->
  exists a, from_vector_of_bytes (encode st c ++ symbol_text syms ++ comment_text o) = Ok a /\
    represents a c /\ getters_return a c.
Proof. exact parse_inverts_encode. Qed.
Print Assumptions C15_parse_inverts_encode.

Example C15_parse_inverts_encode_case :
  circuit_wf ex_circuit /\ file_fits ex_circuit /\ Forall (symbol_ok ex_circuit) ex_symbols /\
  comment_ok ex_comment /\
  encode ex_style ex_circuit =
    bs "aig 6 1 3 1 2 2 1 0" ++ [10] ++ bs "10 0" ++ [10] ++ bs "3 1" ++ [10] ++ bs "12 8" ++ [10] ++
    bs "13" ++ [10] ++ bs "10" ++ [10] ++ bs "4" ++ [10] ++ bs "2" ++ [10] ++ [2; 5; 2; 4] /\
  (exists a, ex_graph = Ok a /\ get_latch_information a = Ok [(4, 10, 0); (6, 3, 1); (8, 12, 8)]).
Proof.
  split; [exact ex_wf|]. split; [exact ex_fits|]. split; [exact ex_symbols_ok|].
  split; [exact ex_comment_ok|]. split; [vm_compute; reflexivity|].
  eexists. split; vm_compute; reflexivity.
Qed.

(* ------------------------------------------------------------------------ C16 *)

Theorem C16_accepted_well_formed :
  forall data a, from_vector_of_bytes data = Ok a ->
  exists c, represents a c /\ circuit_wf c /\ circuit_fits c /\
    forall c', represents a c' -> c' = c.
Proof. exact accepted_well_formed. Qed.
Print Assumptions C16_accepted_well_formed.

Example C16_accepted_well_formed_case :
  (exists a, from_vector_of_bytes (bs "aig 3 2 0 1 1" ++ [10] ++ bs "7" ++ [10] ++ [2; 2] ++
                                   bs "i1 b" ++ [10]) = Ok a /\ outputs a = [7]) /\
  from_vector_of_bytes (bs "aig 3 2 0 1 1" ++ [10] ++ bs "8" ++ [10] ++ [2; 2]) = Panic /\
  from_vector_of_bytes (bs "aig 3 2 0 1 1" ++ [10] ++ bs "7" ++ [10] ++ [0; 2]) = Panic /\
  from_vector_of_bytes (bs "aig 1 0 1 0 0" ++ [10] ++ bs "2 4" ++ [10]) = Panic.
Proof.
  split; [eexists; split; vm_compute; reflexivity|]. vm_compute. repeat split.
Qed.

(* ------------------------------------------------------------------------ C17 *)

Theorem C17_export_faithful :
  forall data a, from_vector_of_bytes data = Ok a ->
  exists c text rest, represents a c /\ get_aag_string a = Ok text /\
    read_aag text = Some (aag_of c, rest).
Proof. exact accepted_export. Qed.
Print Assumptions C17_export_faithful.

Example C17_export_faithful_case :
  exists a text rest, ex_graph = Ok a /\ get_aag_string a = Ok text /\
    read_aag text = Some (aag_of ex_circuit, rest) /\
    firstn 20 text = bs "aag 6 1 3 1 2 2 1" ++ [10] ++ bs "2" ++ [10].
Proof.
  do 3 eexists. split; [vm_compute; reflexivity|]. split; [vm_compute; reflexivity|].
  split; vm_compute; reflexivity.
Qed.

(* ------------------------------------------------------------------------ C18 *)

(** Two outputs that share a node: the second symbol overwrites the first. *)
Theorem C18_symbols_survive_refuted :
  exists c syms a text g rest, circuit_wf c /\ file_fits c /\ Forall (symbol_ok c) syms /\
    NoDup (map fst syms) /\
    from_vector_of_bytes (encode ex_style c ++ symbol_text syms) = Ok a /\
    get_aag_string a = Ok text /\ read_aag text = Some (g, rest) /\
    In (K_output, 0, bs "x") syms /\ ~ In (K_output, 0, bs "x") (read_symbols rest) /\
    In (K_output, 0, bs "y") (read_symbols rest).
Proof. exact symbols_shared. Qed.
Print Assumptions C18_symbols_survive_refuted.

(** When no position with a symbol shares its variable with another position of its kind,
    the exported symbols are exactly those in the file. *)
Theorem C18_symbols_survive_partial :
  forall st c syms o, circuit_wf c -> file_fits c -> Forall (symbol_ok c) syms ->
  comment_ok o -> NoDup (map fst syms) -> unshared c syms ->
  exists a text rest,
    from_vector_of_bytes (encode st c ++ symbol_text syms ++ comment_text o) = Ok a /\
    get_aag_string a = Ok text /\ read_aag text = Some (aag_of c, rest) /\
    forall s, In s (read_symbols rest) <-> In s syms.
Proof. exact symbols_survive. Qed.
Print Assumptions C18_symbols_survive_partial.

Example C18_symbols_survive_case :
  circuit_wf ex_circuit /\ file_fits ex_circuit /\ Forall (symbol_ok ex_circuit) ex_symbols /\
  comment_ok ex_comment /\ NoDup (map fst ex_symbols) /\ unshared ex_circuit ex_symbols.
Proof.
  split; [exact ex_wf|]. split; [exact ex_fits|]. split; [exact ex_symbols_ok|].
  split; [exact ex_comment_ok|]. exact ex_unshared.
Qed.

(* ------------------------------------------------------------------------ C19 *)

Theorem C19_cone_exact :
  forall a c order desired, represents a c -> circuit_wf c -> circuit_fits c ->
  order_ok order -> Forall (lit_in_range c) desired ->
  exists gs, cone_of_influence order a desired = Ok gs /\ NoDup gs /\
    forall lhs r0 r1, In (lhs, r0, r1) gs <->
      exists v, lhs = 2 * v /\ gate c v r0 r1 /\ fan_in c desired v.
Proof. exact cone_ok. Qed.
Print Assumptions C19_cone_exact.

Example C19_cone_exact_case :
  exists a, ex_graph = Ok a /\ represents a ex_circuit /\ circuit_fits ex_circuit /\
    cone_of_influence (fun l => l) a [11] = Ok [(10, 8, 3)] /\
    cone_of_influence (fun l => l) a [4; 13] = Ok [(12, 10, 6); (10, 8, 3)].
Proof. exact ex_cone. Qed.

(* ------------------------------------------------------------------------ C20 *)

Theorem C20_simulation_correct :
  forall a c, represents a c -> circuit_wf c -> circuit_fits c ->
  forall ins init r, Forall (fun m => NoDup (keys m)) ins -> NoDup (keys init) ->
  simulate a ins init = Ok r ->
  length r = length ins /\
  Forall (fun vec => lenN vec = c_max c + 1) r /\
  sim_trace c ins init
    (fun t v => if v <=? c_max c then nth (N.to_nat v) (nth t r []) false else false) /\
  forall w, sim_trace c ins init w ->
    forall t v, (t < length ins)%nat -> v <= c_max c -> w t v = nth (N.to_nat v) (nth t r []) false.
Proof. exact simulate_full. Qed.
Print Assumptions C20_simulation_correct.

Example C20_simulation_correct_case :
  exists a, ex_graph = Ok a /\ represents a ex_circuit /\
    simulate a [[(1, false)]; [(1, true)]] [(4, true)] =
      Ok [[false; false; false; true; true; true; true];
          [false; true; true; true; true; false; false]].
Proof. exact ex_simulation. Qed.

(* ------------------------------------------------------------------------ C21 *)

(** With no inputs and reset 1 on the first latch, the reset literal equals the latch's
    number and [simulate] asks for an initial value the latch does not need. *)
Theorem C21_simulation_total_refuted :
  exists c a ins init, circuit_wf c /\ circuit_fits c /\ represents a c /\
    complete_stimulus c ins init /\ simulate a ins init = Panic.
Proof. exact simulate_not_total. Qed.
Print Assumptions C21_simulation_total_refuted.

Theorem C21_simulation_total_partial :
  forall a c, represents a c -> circuit_wf c -> circuit_fits c ->
  forall ins init, complete_stimulus c ins init ->
  (forall nx, latch c 1 nx 1 -> In 1 (keys init)) ->
  exists r, simulate a ins init = Ok r.
Proof. exact simulate_total. Qed.
Print Assumptions C21_simulation_total_partial.

(** What is missing above is exactly the case of the refutation: these are the stimuli that
    [simulate] accepts, among those that are maps. *)
Theorem C21_simulation_accepts_exactly :
  forall a c, represents a c -> circuit_wf c -> circuit_fits c ->
  forall ins init, (forall m, In m ins -> NoDup (keys m)) ->
  (exists r, simulate a ins init = Ok r) <->
  ins <> [] /\ (forall m, In m ins -> forall v, In v (keys m) <-> is_input c v) /\
  lenN init <= lenN (c_latches c) /\
  (forall v next reset, latch c v next reset -> reset = 2 * v -> In v (keys init)) /\
  (forall next, latch c 1 next 1 -> In 1 (keys init)).
Proof. exact simulate_exact. Qed.
Print Assumptions C21_simulation_accepts_exactly.

Example C21_simulation_total_case :
  exists a, ex_graph = Ok a /\ represents a ex_circuit /\
    complete_stimulus ex_circuit [[(1, false)]; [(1, true)]] [(4, true)] /\
    (forall nx, latch ex_circuit 1 nx 1 -> In 1 (keys [(4, true)])).
Proof. exact ex_stimulus. Qed.

(* ------------------------------------------------------------------------ C47 *)

(** A header that spells out all nine fields is rejected, whatever the numbers. *)
Theorem C47_full_header_refuted :
  exists c rest, circuit_wf c /\ file_fits c /\
    (exists a, from_vector_of_bytes (encode ex_style c ++ rest) = Ok a) /\
    from_vector_of_bytes
      (line (bs "aig" :: map dec [c_max c; c_inputs c; lenN (c_latches c); lenN (c_outputs c);
                                  lenN (c_ands c); lenN (c_bad c); lenN (c_constraints c); 0; 0])
       ++ skipn (length (line (bs "aig" :: map dec (header_numbers ex_style c))))
            (encode ex_style c) ++ rest) = Panic.
Proof. exact full_header_rejected. Qed.
Print Assumptions C47_full_header_refuted.

Theorem C47_full_header_always_rejected :
  forall fields rest, length fields = 9%nat ->
  from_vector_of_bytes (line (bs "aig" :: map dec fields) ++ rest) = Panic.
Proof. exact header_too_long. Qed.
Print Assumptions C47_full_header_always_rejected.

(** Any number of trailing zero fields among B, C, J is accepted. *)
Theorem C47_shorter_headers_partial :
  forall fields c, circuit_wf c -> file_fits c ->
  exists a, from_vector_of_bytes (encode (mkStyle fields (fun _ => true)) c) = Ok a /\
    represents a c.
Proof. exact shorter_headers. Qed.
Print Assumptions C47_shorter_headers_partial.

Example C47_shorter_headers_case :
  header_numbers (mkStyle 3 (fun _ => true)) shared_circuit = [1; 1; 0; 2; 0; 0; 0; 0] /\
  header_numbers (mkStyle 0 (fun _ => true)) shared_circuit = [1; 1; 0; 2; 0].
Proof. vm_compute. auto. Qed.
