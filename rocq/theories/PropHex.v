(** C64: decode --hex. *)
From Coq Require Import Strings.String.
From Verif Require Import Base SpecBytes ModelWord ModelFloat ModelTrans SpecVM ModelVM ModelText ModelParse ModelSchema ModelImage Samples ModelJson ModelHex SpecHex LemHex
  SpecJson PropJson.

(** Full property: decode --hex writes the document that decode writes, with every array of bytes as a string of hexadecimal digits.

    Proved: for every image whose bytecode has nothing that is, or passes for, an array of bytes, and every input, the two commands
    give the same result, success or not. Missing: arrays of bytes, for which the property is false (see the refutations); and the
    condition cannot be left out for other arrays either. *)
Theorem C64_same_partial : forall lm fuel img bytes,
  (forall off len ps bc, cli_load_il img = Ok (Some (off, len, ps)) -> slice UIl img off len = Ok bc -> no_byte_arrays bc = true) ->
  cli_decode_hex lm fuel img bytes = cli_decode lm fuel img bytes.
Proof. exact same_decode. Qed.
Print Assumptions C64_same_partial.

(** When the tool takes the opening [o] of an array of the packet for one of bytes, and the calls for the bytes [vs] and the end of
    the array follow, the document gets a string for it and nothing else in it changes. *)
Theorem C64_collected : forall bc names x l o cs vs e,
  x_io x = at_top l -> Forall (before (List.length l)) (x_strings x) ->
  md (fst o) = Dec -> is_array_op (rq_op (snd o)) = true -> hex_array bc (ip (fst o)) (rq_op (snd o)) = true ->
  Forall2 byte_call cs vs -> md (fst e) = Dec -> rq_op (snd e) = 0x38 ->
  let name := key_name names (rq_key (snd o)) in
  exists y l', feed bc names x (o :: cs ++ [e]) = Ok y /\ x_io y = at_top (l ++ [(name, JArr [])]) /\ x_in y = false /\
    hex_doc x = JObj l' /\ hex_doc y = JObj (l' ++ [(name, JStr (concat (map hex_byte vs)))]) /\ Forall (before (S (List.length l))) (x_strings y).
Proof. exact collected. Qed.
Print Assumptions C64_collected.

(** The string stands for exactly these bytes. *)
Theorem C64_digits : forall vs, wf_bytes vs -> bytes_shown (concat (map hex_byte vs)) = Some vs.
Proof. exact all_shown. Qed.
Print Assumptions C64_digits.

Definition decoded64 (s : string) (b : list N) : option (command json) :=
  match compile_file (file51 s) 300 [] with CImage im => Some (cli_decode_hex lm0 300 im b) | _ => None end.

(** An array of bytes in a compiled schema: its bytes and the fields behind it are not in the document. *)
Theorem C64_refuted_byte_array :
  decoded64 "packet P { u8 a[2]; u8 b; u16 c; }" [5; 6; 7; 8; 9] = Some (Exit0 (obj [("a", JArr []); ("a", JStr [])]%string)).
Proof. vm_compute. reflexivity. Qed.
Print Assumptions C64_refuted_byte_array.

(** An array of 16-bit numbers is taken for one of bytes and its elements are lost, because the field behind it is big endian and has
    the number 16: the tool looks for the kind of the elements behind the operands, which the interpreter has skipped already. *)
Definition src64 (order : string) : string := ("packet P { u8 c0; u8 c1; u8 c2; u8 c3; u8 c4; u8 c5; u8 c6; u8 c7; u8 c8; u8 c9; u8 d0; u8 d1; u8 d2; u8 d3; u8 d4; u16 a[2]; "
  ++ order ++ "u16 b; }")%string.
Definition fields64 (a : json) (b : Z) : list (string * json) :=
  ([("c0", num 1); ("c1", num 1); ("c2", num 1); ("c3", num 1); ("c4", num 1); ("c5", num 1); ("c6", num 1); ("c7", num 1); ("c8", num 1); ("c9", num 1);
   ("d0", num 1); ("d1", num 1); ("d2", num 1); ("d3", num 1); ("d4", num 1); ("a", a); ("b", num b)])%string.
Theorem C64_refuted_words :
  decoded64 (src64 "@be ") (repeat 1 21) = Some (Exit0 (obj (fields64 (JStr []) 257))) /\
  decoded51 (src64 "@be ") (repeat 1 21) = Some (Exit0 (obj (fields64 (JArr [num 257; num 257]) 257))).
Proof. split; vm_compute; reflexivity. Qed.
Print Assumptions C64_refuted_words.

(** A schema with arrays and strings meets the condition of [C64_same_partial]; so does the schema above in its other byte order. *)
Definition quiet64 (s : string) : bool :=
  match compile_file (file51 s) 300 [] with
  | CImage im => match cli_load_il im with
                 | Ok (Some (off, len, _)) => match slice UIl im off len with Ok bc => no_byte_arrays bc | Ub _ => false end
                 | _ => false
                 end
  | _ => false
  end.
Example C64_same_nonvacuous : quiet64 src51 = true /\ quiet64 (src64 "") = true /\ quiet64 (src64 "@be ") = false.
Proof. repeat split; vm_compute; reflexivity. Qed.

(** The calls of an array that is taken for one of bytes, 0x0A and 0xF0 *)
Definition call64 (op v : N) : request := {| rq_key := 0; rq_op := op; rq_pl := PInt W1 v; rq_how := HNote |}.
Example C64_collected_nonvacuous :
  let bc := [0x35; 0; 0; 0; 0; 0x10] in let s := init Dec [] in
  hex_array bc (ip s) 0x35 = true /\
  match feed bc [chars "a"] start_hex [(s, call64 0x35 2); (s, call64 0x10 10); (s, call64 0x10 240); (s, call64 0x38 0)] with
  | Ok y => hex_doc y = obj [("a", JStr (chars "0AF0"))]%string
  | Ub _ => False
  end.
Proof. split; vm_compute; reflexivity. Qed.
