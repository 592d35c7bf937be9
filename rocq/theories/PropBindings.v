(** C78: the constants of the language bindings are those of the C header *)
From Coq Require Import Strings.String.
From Verif Require Import Base ModelText ModelLsp ModelBindings SpecBindings LemBindings LemPascal.
Local Open Scope string_scope.
Local Open Scope list_scope.
Local Open Scope N_scope.

(** For every header of definitions of opcodes, enumerations that start with a value, and other lines: the file of each language declares
    exactly the constants of the header, in order, under their names in PascalCase and with their values in C.

    Full property: for every header the C compiler accepts.  Missing, see the refutations below: enumerations whose first entry has no value,
    several entries on a line, values that are not plain literals, comments with [/* */], lines of more than 1022 bytes, names of more than 250
    bytes, more than 256 constants of a kind. *)
Theorem C78_constants_partial : forall read file text cs vs,
  read file = Some text -> header cs text -> constants cs vs -> Forall good_chunk cs ->
  Forall (fun c => (- 2 ^ 31 <= snd c < 2 ^ 31)%Z) vs -> (forall g, lenN (filter (member g) vs) <= 256) ->
  exists errors modes transforms opcodes orders,
    declared Errors vs errors /\ declared Modes vs modes /\ declared Transforms vs transforms /\ declared Opcodes vs opcodes /\ declared Orders vs orders /\
    bindings read [file] = Done (0, go_file errors modes transforms opcodes orders) /\
    bindings read [file; chars "go"] = Done (0, go_file errors modes transforms opcodes orders) /\
    bindings read [file; chars "python"] = Done (0, python_file errors modes transforms opcodes) /\
    bindings read [file; chars "ts"] = Done (0, typescript_file errors modes transforms opcodes).
Proof.
  intros read file text cs vs RD H C G I R.
  destruct (chunks_run cs text vs tables0 H C G I) as (t & P & GR); [intros g; destruct g; apply R |].
  assert (D : forall g, declared g vs (tab g t)).
  { intros g. destruct (GR g) as (ds & E & D). replace (tab g tables0) with (@nil const) in E by (destruct g; reflexivity). rewrite E. exact D. }
  exists (t_errs t), (t_modes t), (t_trans t), (t_ops t), (t_others t).
  repeat (split; [first [apply (D Errors) | apply (D Modes) | apply (D Transforms) | apply (D Opcodes) | apply (D Orders)] |]).
  unfold bindings. rewrite RD. unfold gather. rewrite P. cbn [gbind]. rewrite <- go_text, <- python_text, <- ts_text. auto.
Qed.
Print Assumptions C78_constants_partial.

(** The enumerations of concordia.h, 150-181, with some of its opcodes *)
Definition text78 (ls : list string) : list N := flat_map (fun l => chars l ++ [10]) ls.
Definition header78 : list N := text78
  ["#ifndef CONCORDIA_H"; "#define CONCORDIA_H"; ""; "// Category A: Meta & State";
   "#define OP_SET_ENDIAN_LE    0x01"; "#define OP_CRC_16           0x2A // CND_ERR_OK = 9"; "#define CND_MAX_LOOP_DEPTH 8"; "typedef enum {";
   "    CND_ERR_OK = 0,"; "    CND_ERR_OOB = 1,           // Out of bounds (IL or Data)"; "    CND_ERR_CRC_MISMATCH = 7"; "} cnd_error_t;";
   "    CND_LE = 0, // Little Endian"; "    CND_BE = 1  // Big Endian";
   "    CND_TRANS_NONE = 0,"; "    CND_TRANS_SCALE_F64, // Linear"; "    CND_TRANS_POLY"].
Definition entry78 (n : string) (v : option string) : entry := (chars n, option_map chars v).
Definition chunks78 : list chunk :=
  [Line (chars "#ifndef CONCORDIA_H"); Line (chars "#define CONCORDIA_H"); Line []; Line (chars "// Category A: Meta & State");
   Define (chars "SET_ENDIAN_LE") (chars "0x01"); Define (chars "CRC_16") (chars "0x2A"); Line (chars "#define CND_MAX_LOOP_DEPTH 8"); Line (chars "typedef enum {");
   Enum [entry78 "CND_ERR_OK" (Some "0"); entry78 "CND_ERR_OOB" (Some "1"); entry78 "CND_ERR_CRC_MISMATCH" (Some "7")]; Line (chars "} cnd_error_t;");
   Enum [entry78 "CND_LE" (Some "0"); entry78 "CND_BE" (Some "1")];
   Enum [entry78 "CND_TRANS_NONE" (Some "0"); entry78 "CND_TRANS_SCALE_F64" None; entry78 "CND_TRANS_POLY" None]].
Definition values78 : list (list N * Z) :=
  [(chars "OP_SET_ENDIAN_LE", 1%Z); (chars "OP_CRC_16", 42%Z); (chars "CND_ERR_OK", 0%Z); (chars "CND_ERR_OOB", 1%Z); (chars "CND_ERR_CRC_MISMATCH", 7%Z);
   (chars "CND_LE", 0%Z); (chars "CND_BE", 1%Z); (chars "CND_TRANS_NONE", 0%Z); (chars "CND_TRANS_SCALE_F64", 1%Z); (chars "CND_TRANS_POLY", 2%Z)].

Lemma header78_ok : header chunks78 header78.
Proof.
  assert (other : forall a b cs t, other_check (chars a) = true -> (b = "" \/ exists c, b = append "//" c /\ forallb (fun c => negb (c =? 10) && negb (c =? 0)) (chars c) = true) ->
            lenN (chars a ++ chars b) <= 1022 -> header cs t -> header (Line (chars a ++ chars b) :: cs) ((chars a ++ chars b) ++ [10] ++ t)).
  { intros a b cs t A B L H. constructor; [| exact L | exact H]. apply other_checked; [exact A |]. destruct B as [-> | (c & -> & C)]; [left; reflexivity |].
    apply (remark_check (chars c)), C. }
  unfold chunks78, header78, text78. cbn [flat_map]. rewrite app_nil_r.
  apply (other "#ifndef CONCORDIA_H" ""); [reflexivity | auto | vm_compute; discriminate |].
  apply (other "#define CONCORDIA_H" ""); [reflexivity | auto | vm_compute; discriminate |].
  apply (other "" ""); [reflexivity | auto | vm_compute; discriminate |].
  apply (other "" "// Category A: Meta & State"); [reflexivity | right; exists " Category A: Meta & State"; split; reflexivity | vm_compute; discriminate |].
  apply (hdr_define _ _ (chars "#define OP_SET_ENDIAN_LE    0x01")).
  { apply (def_line (chars "SET_ENDIAN_LE") (chars "0x01") [32] (chars "    ") [] []); try (apply blanks_check; reflexivity); try discriminate. left. reflexivity. }
  { vm_compute. discriminate. }
  apply (hdr_define _ _ (chars "#define OP_CRC_16           0x2A // CND_ERR_OK = 9")).
  { apply (def_line (chars "CRC_16") (chars "0x2A") [32] (chars "           ") [32] (chars "// CND_ERR_OK = 9")); try (apply blanks_check; reflexivity); try discriminate.
    apply (remark_check (chars " CND_ERR_OK = 9")). reflexivity. }
  { vm_compute. discriminate. }
  apply (other "#define CND_MAX_LOOP_DEPTH 8" ""); [reflexivity | auto | vm_compute; discriminate |].
  apply (other "typedef enum {" ""); [reflexivity | auto | vm_compute; discriminate |].
  apply (hdr_enum _ (text78 ["    CND_ERR_OK = 0,"; "    CND_ERR_OOB = 1,           // Out of bounds (IL or Data)"; "    CND_ERR_CRC_MISMATCH = 7"])).
  { apply (els_cons _ _ (chars "    CND_ERR_OK = 0,")); [| vm_compute; discriminate |].
    { apply (ent_given (chars "CND_ERR_OK") (chars "0") (chars "    ") [32] [32] [] [44] [] []); try (apply blanks_check; reflexivity); [right | left]; reflexivity. }
    apply (els_cons _ _ (chars "    CND_ERR_OOB = 1,           // Out of bounds (IL or Data)")); [| vm_compute; discriminate |].
    { apply (ent_given (chars "CND_ERR_OOB") (chars "1") (chars "    ") [32] [32] [] [44] (chars "           ") (chars "// Out of bounds (IL or Data)"));
        try (apply blanks_check; reflexivity); [right; reflexivity |]. apply (remark_check (chars " Out of bounds (IL or Data)")). reflexivity. }
    apply (els_cons _ _ (chars "    CND_ERR_CRC_MISMATCH = 7") []); [| vm_compute; discriminate | constructor].
    apply (ent_given (chars "CND_ERR_CRC_MISMATCH") (chars "7") (chars "    ") [32] [32] [] [] [] []); try (apply blanks_check; reflexivity); left; reflexivity. }
  apply (other "} cnd_error_t;" ""); [reflexivity | auto | vm_compute; discriminate |].
  apply (hdr_enum _ (text78 ["    CND_LE = 0, // Little Endian"; "    CND_BE = 1  // Big Endian"])).
  { apply (els_cons _ _ (chars "    CND_LE = 0, // Little Endian")); [| vm_compute; discriminate |].
    { apply (ent_given (chars "CND_LE") (chars "0") (chars "    ") [32] [32] [] [44] [32] (chars "// Little Endian")); try (apply blanks_check; reflexivity); [right; reflexivity |].
      apply (remark_check (chars " Little Endian")). reflexivity. }
    apply (els_cons _ _ (chars "    CND_BE = 1  // Big Endian") []); [| vm_compute; discriminate | constructor].
    apply (ent_given (chars "CND_BE") (chars "1") (chars "    ") [32] [32] [32; 32] [] [] (chars "// Big Endian")); try (apply blanks_check; reflexivity); [left; reflexivity |].
    apply (remark_check (chars " Big Endian")). reflexivity. }
  apply (hdr_enum _ (text78 ["    CND_TRANS_NONE = 0,"; "    CND_TRANS_SCALE_F64, // Linear"; "    CND_TRANS_POLY"]) [] []); [| constructor].
  apply (els_cons _ _ (chars "    CND_TRANS_NONE = 0,")); [| vm_compute; discriminate |].
  { apply (ent_given (chars "CND_TRANS_NONE") (chars "0") (chars "    ") [32] [32] [] [44] [] []); try (apply blanks_check; reflexivity); [right | left]; reflexivity. }
  apply (els_cons _ _ (chars "    CND_TRANS_SCALE_F64, // Linear")); [| vm_compute; discriminate |].
  { apply (ent_bare (chars "CND_TRANS_SCALE_F64") (chars "    ") [] [44] [32] (chars "// Linear")); try (apply blanks_check; reflexivity); [right; reflexivity |].
    apply (remark_check (chars " Linear")). reflexivity. }
  apply (els_cons _ _ (chars "    CND_TRANS_POLY") []); [| vm_compute; discriminate | constructor].
  apply (ent_bare (chars "CND_TRANS_POLY") (chars "    ") [] [] [] []); try (apply blanks_check; reflexivity); left; reflexivity.
Qed.
Lemma values78_ok : constants chunks78 values78.
Proof.
  assert (ZE : literal (chars "0") 0) by apply (digit_literal 48 ltac:(lia)).
  assert (ON : literal (chars "1") 1) by apply (digit_literal 49 ltac:(lia)).
  assert (SE : literal (chars "7") 7) by apply (digit_literal 55 ltac:(lia)).
  unfold chunks78. do 4 apply con_line.
  apply (con_define _ _ 1); [apply (hex_one 49 1); unfold hex_digit; lia |].
  apply (con_define _ _ 42).
  { apply (lit_hex 50 [65]). apply (hex_snoc [50] 2 65 10); [apply (hex_snoc [] 0 50 2); [constructor |] |]; unfold hex_digit; lia. }
  do 2 apply con_line.
  apply (con_enum _ [(chars "CND_ERR_OK", 0%Z); (chars "CND_ERR_OOB", 1%Z); (chars "CND_ERR_CRC_MISMATCH", 7%Z)]).
  { apply num_given; [exact ZE |]. apply num_given; [exact ON |]. apply num_given; [exact SE |]. constructor. }
  apply con_line. apply (con_enum _ [(chars "CND_LE", 0%Z); (chars "CND_BE", 1%Z)]).
  { apply num_given; [exact ZE |]. apply num_given; [exact ON |]. constructor. }
  apply (con_enum _ [(chars "CND_TRANS_NONE", 0%Z); (chars "CND_TRANS_SCALE_F64", 1%Z); (chars "CND_TRANS_POLY", 2%Z)] [] []); [| constructor].
  apply num_given; [exact ZE |]. apply num_next. apply num_next. constructor.
Qed.
(** All hypotheses hold of that header, and this is the file for Go *)
Example C78_nonvacuous :
  header chunks78 header78 /\ constants chunks78 values78 /\ Forall good_chunk chunks78 /\ Forall (fun c => (- 2 ^ 31 <= snd c < 2 ^ 31)%Z) values78 /\
  (forall g, lenN (filter (member g) values78) <= 256) /\
  bindings (fun _ => Some header78) [chars "concordia.h"] = Done (0, text78
    ["// Code generated by gen_bindings.c; DO NOT EDIT."; "package concordia"; ""; "type Error int"; "type Mode int"; "type Trans int"; "type OpCode uint8"; "";
     "const ("; String (Ascii.ascii_of_nat 9) "ErrOk Error = 0"; String (Ascii.ascii_of_nat 9) "ErrOOB Error = 1"; String (Ascii.ascii_of_nat 9) "ErrCRCMismatch Error = 7"; ")"; "";
     "const ("; String (Ascii.ascii_of_nat 9) "TransNone Trans = 0"; String (Ascii.ascii_of_nat 9) "TransScaleF64 Trans = 1"; String (Ascii.ascii_of_nat 9) "TransPoly Trans = 2"; ")"; "";
     "const ("; String (Ascii.ascii_of_nat 9) "OpSetEndianLe OpCode = 0x01"; String (Ascii.ascii_of_nat 9) "OpCRC16 OpCode = 0x2A"; ")"; "";
     "const ("; String (Ascii.ascii_of_nat 9) "Le = 0"; String (Ascii.ascii_of_nat 9) "Be = 1"; ")"]).
Proof.
  split; [exact header78_ok |]. split; [exact values78_ok |]. split; [| split; [| split; [intros []; vm_compute; discriminate | vm_compute; reflexivity]]].
  - assert (EN : forall n v, good_name (chars n) -> match behind (chars "CND_") (chars n) with Some _ => true | None => false end = true ->
              match v with Some v => lenN (chars v) <= 255 | None => True end -> good_entry (entry78 n v)).
    { intros n v A B C. split; [exact A |]. cbn [fst snd entry78]. split; [| destruct v; exact C].
      destruct (behind (chars "CND_") (chars n)) as [r |] eqn:E; [| discriminate]. exists r. now apply behind_eq. }
    unfold chunks78. repeat (apply Forall_cons; [first [exact Logic.I | (split; [apply name_check; reflexivity | vm_compute; discriminate]) |
      (split; [repeat (apply Forall_cons; [apply EN; [apply name_check; reflexivity | reflexivity | first [exact Logic.I | vm_compute; discriminate]] |]); apply Forall_nil
              | exact Logic.I])] |]). apply Forall_nil.
  - repeat constructor; vm_compute; discriminate.
Qed.

(** Names that are different in the header stay different: names of words of capitals and digits that start with a capital, no two words of one
    letter following each other *)
Theorem C78_names_apart : forall n m p, plain_name n -> plain_name m -> pascal_name n p -> pascal_name m p -> n = m.
Proof. exact names_apart. Qed.
Print Assumptions C78_names_apart.
Example C78_names_apart_nonvacuous :
  plain_name (chars "CRC_MISMATCH_I64") /\ pascal_name (chars "CRC_MISMATCH_I64") (chars "CRCMismatchI64").
Proof.
  assert (W : words (chars "CRC_MISMATCH_I64") [chars "CRC"; chars "MISMATCH"; chars "I64"]) by (apply (split_words (chars "CRC_MISMATCH_I64") []); intros []).
  split; exists [chars "CRC"; chars "MISMATCH"; chars "I64"]; (split; [exact W |]); [| reflexivity].
  split; [| cbn; auto]. repeat constructor; vm_compute; try discriminate; try (left; split; discriminate); right; split; discriminate.
Qed.

(** Without these conditions two constants get one name (which Go, Python and TypeScript refuse) *)
Theorem C78_refuted_names :
  gather (text78 ["#define OP_CRC_16 0x2A"; "#define OP_CRC16 0x2B"; "#define OP_ID 0x2C"; "#define OP_I_D 0x2D"]) =
  Done (mkt [(chars "OpCRC16", chars "0x2A"); (chars "OpCrc16", chars "0x2B"); (chars "OpID", chars "0x2C"); (chars "OpID", chars "0x2D")] [] [] [] [] (-1)) /\
  gather (text78 ["#define OP_IO_U_8 0x10"; "#define OP_IO_U8 0x11"]) =
  Done (mkt [(chars "OpIoU8", chars "0x10"); (chars "OpIoU8", chars "0x11")] [] [] [] [] (-1)).
Proof. split; vm_compute; reflexivity. Qed.
Print Assumptions C78_refuted_names.

(** An enumeration that starts without a value goes on from the one before it: CND_MODE_ENCODE is 0 in C and 9 in the bindings *)
Theorem C78_refuted_first_value :
  let es := [entry78 "CND_MODE_ENCODE" None; entry78 "CND_MODE_DECODE" None] in
  numbered 0 es [(chars "CND_MODE_ENCODE", 0%Z); (chars "CND_MODE_DECODE", 1%Z)] /\
  gather (text78 ["enum {"; "CND_ERR_ARITHMETIC = 8"; "};"; "enum {"; "CND_MODE_ENCODE,"; "CND_MODE_DECODE"; "};"]) =
  Done (mkt [] [(chars "ErrArithmetic", chars "8")] [(chars "ModeEncode", chars "9"); (chars "ModeDecode", chars "10")] [] [] 10).
Proof. split; [repeat constructor | vm_compute; reflexivity]. Qed.
Print Assumptions C78_refuted_first_value.

(** Only the first entry of a line is seen, a value that is computed is cut, and what is commented out between slash and star is published *)
Theorem C78_refuted_lines :
  gather (text78 ["enum { CND_ERR_A = 0 };"; "CND_LE = 0, CND_BE = 1"; "CND_TRANS_X = 1 << 4,"; "/*"; "CND_MODE_OLD = 3,"; "*/"]) =
  Done (mkt [] [] [(chars "ModeOld", chars "3")] [(chars "TransX", chars "1")] [(chars "Le", chars "0")] 3).
Proof. vm_compute; reflexivity. Qed.
Print Assumptions C78_refuted_lines.

(** A name of 300 letters is written past its array; so is the 257th opcode *)
Theorem C78_refuted_overrun :
  gather (chars "#define OP_" ++ repeat 65 300 ++ chars " 1" ++ [10]) = Overrun /\
  gather (flat_map (fun _ => chars "#define OP_X 1" ++ [10]) (seq 0 257)) = Overrun.
Proof. split; vm_compute; reflexivity. Qed.
Print Assumptions C78_refuted_overrun.

(** Unknown languages and files that cannot be opened are refused: nothing is printed, exit code 1 *)
Theorem C78_refusals : forall read,
  bindings read [] = Done (1, []) /\
  (forall file more, read file = None -> bindings read (file :: more) = Done (1, [])) /\
  (forall file text lang more out, read file = Some text -> bindings read (file :: lang :: more) = Done (0, out) ->
     In lang (map chars ["go"; "python"; "ts"])).
Proof.
  intros read. split; [reflexivity |]. split.
  - intros file more E. cbn [bindings]. now rewrite E.
  - intros file text lang more out E. cbn [bindings]. rewrite E. destruct (gather text); cbn [gbind]; try discriminate.
    destruct (list_eq_dec N.eq_dec lang (chars "go")) as [-> |]; [cbn; auto |]. destruct (list_eq_dec N.eq_dec lang (chars "python")) as [-> |]; [cbn; auto |].
    destruct (list_eq_dec N.eq_dec lang (chars "ts")) as [-> |]; [cbn; auto |]. discriminate.
Qed.
Print Assumptions C78_refusals.
Example C78_refusals_nonvacuous : bindings (fun _ => Some header78) [chars "concordia.h"; chars "rust"] = Done (1, []).
Proof. vm_compute. reflexivity. Qed.
