(** C51: JSON through the command line tool. *)
From Coq Require Import Strings.String.
From Verif Require Import Base SpecBytes SpecVM ModelVM ModelFloat SpecReal ModelText SpecText ModelParse ModelSchema SpecImage SpecPacket SpecMessage
  Samples ModelJson SpecJson LemJnum LemCli.

(** Full property: for every schema and every JSON document with the values of its fields, the tool's encode command writes the
    message of those values, and its decode command gives from the message a document with the same values.

    Proved for packets of plain fields (integers, floats, booleans, arrays, strings) whose message has at most 1024 bytes, and for
    the values that [number_managed] and [managed] list: 32-bit unsigned numbers below 2^31, 64-bit numbers up to 2^53, finite
    floats, arrays that are not empty and not of u8 or i8, no big-endian strings with a 32-bit length. The fields may stand in
    any order in the document, among others. Missing: the rest of the language; see the refutations for the other values. *)
Theorem C51_round_trip_partial : forall E path k toks, holds_packet E path k toks ->
  lenN (pk_names k) <= 65535 -> 16 + table_bytes (pk_names k) < 2 ^ 32 ->
  exists im, (forall fuel, (length toks < fuel)%nat -> compile_file E fuel path = CImage im) /\
  (lenN im < 2 ^ 62 -> forall lm ds doc, Forall2 (fun f d => datum_ok (f_content f) d) (pk_fields k) ds -> describes (pk_fields k) ds doc ->
   let os := orders_from (packet_order k) (pk_fields k) in all_managed os (pk_fields k) ds ->
   let msg := wire os (pk_fields k) ds in
   (lenN msg <= 1024 -> exists n, forall fuel, (n <= fuel)%nat -> cli_encode lm fuel im doc = Exit0 msg) /\
   exists n out, document (pk_fields k) ds out /\ forall fuel, (n <= fuel)%nat -> cli_decode lm fuel im msg = Exit0 (JObj out)).
Proof. exact cli_round_trip. Qed.
Print Assumptions C51_round_trip_partial.

(** The decoded document has the same values: a message determines the numbers shown, so encoding it again gives the message. *)
Theorem C51_document_describes : forall fs ds out, document fs ds out -> NoDup (map (fun f => fold_case (f_name f)) fs) -> describes fs ds (JObj out).
Proof. exact document_describes. Qed.
Print Assumptions C51_document_describes.

Definition file51 (s : string) : env := {| e_strtod := fun _ => 0; e_read := fun _ => Some (chars s); e_canon := fun x => x |}.
Definition num (z : Z) : json := JNum (f_of_Z F64 z).
Definition obj (l : list (string * json)) : json := JObj (map (fun p => (chars (fst p), snd p)) l).
(** The tool on a source *)
Definition encoded51 (s : string) (j : json) : option (command (list N)) :=
  match compile_file (file51 s) 300 [] with CImage im => Some (cli_encode lm0 300 im j) | _ => None end.
Definition decoded51 (s : string) (b : list N) : option (command json) :=
  match compile_file (file51 s) 300 [] with CImage im => Some (cli_decode lm0 300 im b) | _ => None end.

(** 32-bit unsigned numbers from 2^31 on are written as 2^31 - 1. *)
Theorem C51_refuted_u32 : encoded51 "packet P { u32 b; }" (obj [("b"%string, num (2 ^ 31))]) = Some (Exit0 (bytes_of LE 4 (2 ^ 31 - 1))).
Proof. vm_compute. reflexivity. Qed.
Print Assumptions C51_refuted_u32.
(** After an empty array the following fields are looked for in the array: written as 0; read into the array. *)
Theorem C51_refuted_empty_array :
  encoded51 "packet P { u16 a[] prefix u8; u8 b; }" (obj [("a", JArr []); ("b", num 7)]%string) = Some (Exit0 [0; 0]) /\
  decoded51 "packet P { u16 a[] prefix u8; u8 b; }" [0; 7] = Some (Exit0 (obj [("a", JArr [num 7])]%string)).
Proof. split; vm_compute; reflexivity. Qed.
Print Assumptions C51_refuted_empty_array.
(** Arrays of bytes, which the interpreter offers at once, are opened twice: written as zeros, read as two empty arrays, and the
    next field goes to the array. *)
Theorem C51_refuted_byte_array :
  encoded51 "packet P { u8 a[] prefix u8; u8 b; }" (obj [("a", JArr [num 5; num 6]); ("b", num 7)]%string) = Some (Exit0 [2; 0; 0; 5]) /\
  decoded51 "packet P { u8 a[] prefix u8; u8 b; }" [2; 5; 6; 7] = Some (Exit0 (obj [("a", JArr []); ("a", JArr [num 7])]%string)).
Proof. split; vm_compute; reflexivity. Qed.
Print Assumptions C51_refuted_byte_array.
(** The length of a big-endian string with a 32-bit length is read as little endian: far outside the message. *)
Theorem C51_refuted_long_string : decoded51 "packet P { @be string a prefix u32; u8 b; }" [0; 0; 0; 1; 65; 7] = Some (Wrong UData).
Proof. vm_compute. reflexivity. Qed.
Print Assumptions C51_refuted_long_string.
(** Fields whose names differ in case only are confused. *)
Theorem C51_refuted_case : encoded51 "packet P { u8 a; u8 A; }" (obj [("a", num 5); ("A", num 7)]%string) = Some (Exit0 [5; 5]).
Proof. vm_compute. reflexivity. Qed.
Print Assumptions C51_refuted_case.

(** 64-bit numbers go through a double. Of two that differ in the last digit one comes back as the other; the document decoded from the
    greatest makes the encoder convert a double that is out of range, which is undefined, and so does a negative number. *)
Theorem C51_refuted_u64 :
  (exists doc, decoded51 "packet P { u64 w; }" (bytes_of LE 8 (2 ^ 53 + 1)) = Some (Exit0 doc) /\
     encoded51 "packet P { u64 w; }" doc = Some (Exit0 (bytes_of LE 8 (2 ^ 53)))) /\
  (exists doc, decoded51 "packet P { u64 w; }" (bytes_of LE 8 (2 ^ 64 - 1)) = Some (Exit0 doc) /\
     encoded51 "packet P { u64 w; }" doc = Some (Wrong UFloat)) /\
  encoded51 "packet P { u64 w; }" (obj [("w"%string, num (-1))]) = Some (Wrong UFloat).
Proof.
  split; [exists (obj [("w"%string, num (2 ^ 53))]); split; vm_compute; reflexivity|].
  split; [exists (obj [("w"%string, num (2 ^ 64))]); split; vm_compute; reflexivity|]. vm_compute. reflexivity.
Qed.
Print Assumptions C51_refuted_u64.
(** A number that does not fit its field is not refused: the low bytes are written. *)
Theorem C51_refuted_too_large : encoded51 "packet P { u8 a; i16 b; }" (obj [("a", num 300); ("b", num 40000)]%string) = Some (Exit0 ([44] ++ bytes_of LE 2 40000)).
Proof. vm_compute. reflexivity. Qed.
Print Assumptions C51_refuted_too_large.

Definition src51 : string := "packet P { u16 a; @be i32 b; u16 xs[] prefix u8; string t prefix u16; string z; u64 w; bool q; double d; }".
Definition doc51 : json := obj [("q", JBool true); ("b", num (-7)); ("xs", JArr [num 1; num 2]); ("other", JNull); ("t", JStr (chars "hi"));
  ("z", JStr (chars "ho")); ("w", num 9); ("a", num 258); ("d", num 3)]%string.
Example C51_nonvacuous :
  encoded51 src51 doc51 = Some (Exit0 ([2; 1] ++ [255; 255; 255; 249] ++ [2; 1; 0; 2; 0] ++ [2; 0; 104; 105] ++ [104; 111; 0] ++ [9; 0; 0; 0; 0; 0; 0; 0] ++ [1] ++ [0; 0; 0; 0; 0; 0; 8; 64])) /\
  decoded51 src51 ([2; 1] ++ [255; 255; 255; 249] ++ [2; 1; 0; 2; 0] ++ [2; 0; 104; 105] ++ [104; 111; 0] ++ [9; 0; 0; 0; 0; 0; 0; 0] ++ [1] ++ [0; 0; 0; 0; 0; 0; 8; 64]) =
    Some (Exit0 (obj [("a", num 258); ("b", num (-7)); ("xs", JArr [num 1; num 2]); ("t", JStr (chars "hi")); ("z", JStr (chars "ho"));
      ("w", num 9); ("q", JBool true); ("d", num 3)]%string)).
Proof. split; vm_compute; reflexivity. Qed.
(** The hypotheses about the values hold in this case *)
Definition plain51 (l : list bool) (c : content) (s : string) : field := {| f_orders := l; f_content := c; f_name := chars s |}.
Definition fields51 : list field := [plain51 [] (Scalar 0x11 One) "a"; plain51 [true] (Scalar 0x16 One) "b"; plain51 [] (Scalar 0x11 (Counted 1)) "xs";
  plain51 [] (CountedText 2) "t"; plain51 [] (Text 255) "z"; plain51 [] (Scalar 0x13 One) "w"; plain51 [] (Scalar 0x1A One) "q"; plain51 [] (Scalar 0x19 One) "d"].
Definition data51 : list datum := [Value 258; Value (2 ^ 32 - 7); Values [1; 2]; Characters (chars "hi"); Characters (chars "ho"); Value 9; Value 1; Value (f_of_Z F64 3)].
Example C51_nonvacuous_values : Forall2 (fun f d => datum_ok (f_content f) d) fields51 data51 /\ describes fields51 data51 doc51 /\
  all_managed (orders_from LE fields51) fields51 data51 /\
  wire (orders_from LE fields51) fields51 data51 = [2; 1] ++ [255; 255; 255; 249] ++ [2; 1; 0; 2; 0] ++ [2; 0; 104; 105] ++ [104; 111; 0] ++ [9; 0; 0; 0; 0; 0; 0; 0] ++ [1] ++ [0; 0; 0; 0; 0; 0; 8; 64].
Proof.
  split; [|split; [|split]].
  - repeat apply Forall2_cons; try apply Forall2_nil; cbn [fields51 plain51 f_content datum_ok]; unfold number_ok, text; repeat split; try discriminate; repeat constructor; try discriminate.
  - exists (match doc51 with JObj l => l | _ => [] end). split; [reflexivity|]. split.
    { vm_compute. repeat constructor; cbn; intuition discriminate. }
    assert (N : forall ty v z, ty <> 0x1A -> ty <> 0x18 -> ty <> 0x19 -> (Z.abs z <= 2 ^ 53)%Z -> number (width ty) (type_signed ty) v = z -> shows_number ty v (num z)).
    { intros ty v z A B C Z0 E. unfold shows_number. destruct (N.eqb_spec ty 0x1A); [contradiction|]. exists (f_of_Z F64 z). destruct (of_Z_exact z Z0) as (F & R & L).
      split; [reflexivity|]. split; [exact L|]. split; [exact F|]. destruct (N.eqb_spec ty 0x18); [contradiction|]. destruct (N.eqb_spec ty 0x19); [contradiction|]. now rewrite E. }
    repeat apply Forall2_cons; try apply Forall2_nil; cbn [plain51 f_content f_name shows].
    + eexists. split; [do 7 right; left; reflexivity|]. apply N; try discriminate; reflexivity.
    + eexists. split; [do 1 right; left; reflexivity|]. apply N; try discriminate; reflexivity.
    + eexists. split; [do 2 right; left; reflexivity|]. eexists. split; [reflexivity|]. repeat constructor; apply N; try discriminate; reflexivity.
    + eexists. split; [do 4 right; left; reflexivity|]. reflexivity.
    + eexists. split; [do 5 right; left; reflexivity|]. reflexivity.
    + eexists. split; [do 6 right; left; reflexivity|]. apply N; try discriminate; reflexivity.
    + eexists. split; [left; reflexivity|]. reflexivity.
    + eexists. split; [do 8 right; left; reflexivity|]. destruct (of_Z_exact 3 ltac:(discriminate)) as (F & R & L). eexists. split; [reflexivity|]. split; [exact L|]. split; [exact F|]. reflexivity.
  - vm_compute. repeat split; try discriminate; repeat constructor; intros [X|X]; discriminate X.
  - vm_compute. reflexivity.
Qed.
