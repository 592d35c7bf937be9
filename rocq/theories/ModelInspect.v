(** The inspect command: src/cli/cmd_inspect.c.  What is printed is modelled as a list of lines with labelled numbers, not as text;
    numbers printed with %f are given by their 64 bits.  Reading functions compare pointers past the end of the file with its end,
    and shift bytes into the sign bit of an int: both are taken to do what they look like. *)
From Coq Require Import Strings.String.
From Verif Require Import Base SpecBytes ModelVM ModelImage.
Local Open Scope string_scope. Local Open Scope N_scope.

(** read_u8, read_u16, read_u32, read_u64, cmd_inspect.c:9-34: a value and the bytes after it; 0 and the same bytes if they do not suffice *)
Definition read_n (n : nat) (l : list N) : N * list N :=
  if lenN l <? N.of_nat n then (0, l) else (le_val (firstn n l), skipn n l).
Definition read_u8 := read_n 1. Definition read_u16 := read_n 2. Definition read_u32 := read_n 4. Definition read_u64 := read_n 8.

(** get_opcode_name, cmd_inspect.c:36-142 *)
Definition op_name (op : N) : string :=
  match op with
  | 0x00 => "NOOP"
  | 0x01 => "SET_ENDIAN_LE"
  | 0x02 => "SET_ENDIAN_BE"
  | 0x03 => "ENTER_STRUCT"
  | 0x04 => "EXIT_STRUCT"
  | 0x05 => "META_VERSION"
  | 0x07 => "META_NAME"
  | 0x10 => "IO_U8"
  | 0x11 => "IO_U16"
  | 0x12 => "IO_U32"
  | 0x13 => "IO_U64"
  | 0x14 => "IO_I8"
  | 0x15 => "IO_I16"
  | 0x16 => "IO_I32"
  | 0x17 => "IO_I64"
  | 0x18 => "IO_F32"
  | 0x19 => "IO_F64"
  | 0x1A => "IO_BOOL"
  | 0x20 => "IO_BIT_U"
  | 0x21 => "IO_BIT_I"
  | 0x22 => "IO_BIT_BOOL"
  | 0x25 => "ENTER_BIT_MODE"
  | 0x26 => "EXIT_BIT_MODE"
  | 0x23 => "ALIGN_PAD"
  | 0x24 => "ALIGN_FILL"
  | 0x30 => "STR_NULL"
  | 0x31 => "STR_PRE_U8"
  | 0x32 => "STR_PRE_U16"
  | 0x33 => "STR_PRE_U32"
  | 0x34 => "ARR_FIXED"
  | 0x35 => "ARR_PRE_U8"
  | 0x36 => "ARR_PRE_U16"
  | 0x37 => "ARR_PRE_U32"
  | 0x38 => "ARR_END"
  | 0x3A => "ARR_EOF"
  | 0x3B => "ARR_DYNAMIC"
  | 0x39 => "RAW_BYTES"
  | 0x40 => "CONST_CHECK"
  | 0x41 => "CONST_WRITE"
  | 0x42 => "RANGE_CHECK"
  | 0x43 => "SCALE_LIN"
  | 0x44 => "CRC_16"
  | 0x45 => "TRANS_ADD"
  | 0x46 => "TRANS_SUB"
  | 0x47 => "TRANS_MUL"
  | 0x48 => "TRANS_DIV"
  | 0x4C => "TRANS_POLY"
  | 0x4D => "TRANS_SPLINE"
  | 0x49 => "CRC_32"
  | 0x4A => "MARK_OPTIONAL"
  | 0x4B => "ENUM_CHECK"
  | 0x50 => "JUMP_IF_NOT"
  | 0x51 => "SWITCH"
  | 0x52 => "JUMP"
  | 0x60 => "LOAD_CTX"
  | 0x78 => "STORE_CTX"
  | 0x61 => "PUSH_IMM"
  | 0x62 => "POP"
  | 0x63 => "SWAP"
  | 0x64 => "DUP"
  | 0x65 => "EMIT"
  | 0x72 => "ADD"
  | 0x73 => "SUB"
  | 0x74 => "MUL"
  | 0x75 => "DIV"
  | 0x76 => "MOD"
  | 0x77 => "NEG"
  | 0x6F => "LOG_AND"
  | 0x70 => "LOG_OR"
  | 0x71 => "LOG_NOT"
  | 0x80 => "FADD"
  | 0x81 => "FSUB"
  | 0x82 => "FMUL"
  | 0x83 => "FDIV"
  | 0x84 => "FNEG"
  | 0x85 => "SIN"
  | 0x86 => "COS"
  | 0x87 => "TAN"
  | 0x88 => "SQRT"
  | 0x89 => "POW"
  | 0x8A => "LOG"
  | 0x8B => "ABS"
  | 0x90 => "ITOF"
  | 0x91 => "FTOI"
  | 0x92 => "EQ_F"
  | 0x93 => "NEQ_F"
  | 0x94 => "GT_F"
  | 0x95 => "LT_F"
  | 0x96 => "GTE_F"
  | 0x97 => "LTE_F"
  | 0xA0 => "BIT_AND"
  | 0xA1 => "BIT_OR"
  | 0xA2 => "BIT_XOR"
  | 0xA3 => "BIT_NOT"
  | 0xA4 => "SHL"
  | 0xA5 => "SHR"
  | 0x69 => "EQ"
  | 0x6A => "NEQ"
  | 0x6B => "GT"
  | 0x6C => "LT"
  | 0x6D => "GTE"
  | 0x6E => "LTE"
  | _ => "UNKNOWN"
  end.

(** One labelled number; the label is the text before it.  A type is shown by the name of its opcode *)
Definition item : Type := string * Z.
Definition plain (s : string) (v : N) : item := (s, Z.of_N v).

(** Two calls as arguments of one printf: C leaves open which is made first; [rtl]: the last one *)
Definition read2 (rtl : bool) (rd : list N -> N * list N) (l : list N) : N * N * list N :=
  if rtl then let (b, l) := rd l in let (a, l) := rd l in (a, b, l)
  else let (a, l) := rd l in let (b, l) := rd l in (a, b, l).
(** Four of them, the last with another function *)
Definition read4 (rtl : bool) (rd rd' : list N -> N * list N) (l : list N) : N * N * N * N * list N :=
  if rtl then let (d, l) := rd' l in let (c, l) := rd l in let (b, l) := rd l in let (a, l) := rd l in (a, b, c, d, l)
  else let (a, l) := rd l in let (b, l) := rd l in let (c, l) := rd l in let (d, l) := rd' l in (a, b, c, d, l).

(** The value of a type, read and shown as the enum check does it (cmd_inspect.c:390-397); nothing for other types *)
Definition typed (ty : N) (l : list N) : option Z * list N :=
  match ty with
  | 0x10 => let (v, l) := read_u8 l in (Some (Z.of_N v), l)
  | 0x11 => let (v, l) := read_u16 l in (Some (Z.of_N v), l)
  | 0x12 => let (v, l) := read_u32 l in (Some (Z.of_N v), l)
  | 0x13 => let (v, l) := read_u64 l in (Some (Z.of_N v), l)
  | 0x14 => let (v, l) := read_u8 l in (Some (toS 1 v), l)
  | 0x15 => let (v, l) := read_u16 l in (Some (toS 2 v), l)
  | 0x16 => let (v, l) := read_u32 l in (Some (toS 4 v), l)
  | 0x17 => let (v, l) := read_u64 l in (Some (toS 8 v), l)
  | _ => (None, l)
  end.
Fixpoint enum_values (n : nat) (ty : N) (l : list N) : list item * list N :=
  match n with
  | O => ([], l)
  | S n =>
    let (v, l) := typed ty l in
    let (r, l) := enum_values n ty l in
    (match v with Some z => ("Value", z) :: r | None => r end, l)
  end.
(** The loops of the polynomial and spline transforms (cmd_inspect.c:346-372) *)
Fixpoint coefficients (n : nat) (l : list N) : list item * list N :=
  match n with
  | O => ([], l)
  | S n => let (v, l) := read_u64 l in let (r, l) := coefficients n l in (plain "Coeff" v :: r, l)
  end.
Fixpoint points (n : nat) (l : list N) : list item * list N :=
  match n with
  | O => ([], l)
  | S n =>
    let (x, l) := read_u64 l in let (y, l) := read_u64 l in
    let (r, l) := points n l in (plain "X" x :: plain "Y" y :: r, l)
  end.

(** The big switch, cmd_inspect.c:208-450: what is shown after the opcode's name, and the bytes left *)
Definition operands (rtl : bool) (op : N) (l : list N) : list item * list N :=
  match op with
  | 0x05 => let (v, l) := read_u8 l in ([plain "Ver" v], l)
  | 0x07 => let (k, l) := read_u16 l in ([plain "KeyID" k], l)
  | 0x10 | 0x11 | 0x12 | 0x13 | 0x14 | 0x15 | 0x16 | 0x17 | 0x18 | 0x19 | 0x1A | 0x03 =>
    let (k, l) := read_u16 l in ([plain "KeyID" k], l)
  | 0x30 => let (k, l) := read_u16 l in let (m, l) := read_u16 l in ([plain "KeyID" k; plain "MaxLen" m], l)
  | 0x31 | 0x32 | 0x33 | 0x35 | 0x36 | 0x37 => let (k, l) := read_u16 l in ([plain "KeyID" k], l)
  | 0x20 | 0x21 => let (k, l) := read_u16 l in let (b, l) := read_u8 l in ([plain "KeyID" k; plain "Bits" b], l)
  | 0x22 => let (k, l) := read_u16 l in ([plain "KeyID" k], l)
  | 0x34 | 0x39 => let (k, l) := read_u16 l in let (c, l) := read_u32 l in ([plain "KeyID" k; ("Count", toS 4 c)], l)
  | 0x3B => let (k, l) := read_u16 l in let (r, l) := read_u16 l in ([plain "KeyID" k; plain "RefKeyID" r], l)
  | 0x41 =>
    let (ty, l) := read_u8 l in
    match ty with
    | 0x10 | 0x11 | 0x12 | 0x13 => let (v, l) := typed ty l in (plain "Type" ty :: match v with Some z => [("Val", z)] | None => [] end, l)
    | _ => ([plain "Type" ty], l)
    end
  | 0x40 =>
    let (k, l) := read_u16 l in
    let (ty, l) := read_u8 l in
    let show (rd : list N -> N * list N) := let (v, l) := rd l in ([plain "KeyID" k; plain "Type" ty; plain "Val" v], l) in
    match ty with
    | 0x10 | 0x14 => show read_u8
    | 0x11 | 0x15 => show read_u16
    | 0x12 | 0x16 => show read_u32
    | 0x13 | 0x17 => show read_u64
    | _ => ([plain "KeyID" k; plain "Type" ty], l)
    end
  | 0x42 =>
    let (ty, l) := read_u8 l in
    let show (rd : list N -> N * list N) (z : N -> Z) :=
      let '(a, b, l) := read2 rtl rd l in ([plain "Type" ty; ("Range", z a); ("to", z b)], l) in
    match ty with
    | 0x10 => show read_u8 Z.of_N
    | 0x14 => show read_u8 (toS 1)
    | 0x11 => show read_u16 Z.of_N
    | 0x15 => show read_u16 (toS 2)
    | 0x12 => show read_u32 Z.of_N
    | 0x16 => show read_u32 (toS 4)
    | 0x13 => show read_u64 Z.of_N
    | 0x17 => show read_u64 (toS 8)
    | 0x18 => ([plain "Type" ty], skipn 8 l)
    | 0x19 => ([plain "Type" ty], skipn 16 l)
    | _ => ([plain "Type" ty], l)
    end
  | 0x43 => let (a, l) := read_u64 l in let (b, l) := read_u64 l in ([plain "Factor" a; plain "Offset" b], l)
  | 0x45 | 0x46 | 0x47 | 0x48 => let (v, l) := read_u64 l in ([("Val", toS 8 v)], l)
  | 0x4C => let (n, l) := read_u8 l in let (r, l) := coefficients (N.to_nat n) l in (plain "Count" n :: r, l)
  | 0x4D => let (n, l) := read_u8 l in let (r, l) := points (N.to_nat n) l in (plain "Count" n :: r, l)
  | 0x44 => let '(a, b, c, d, l) := read4 rtl read_u16 read_u8 l in ([plain "Poly" a; plain "Init" b; plain "Xor" c; plain "Flags" d], l)
  | 0x49 => let '(a, b, c, d, l) := read4 rtl read_u32 read_u8 l in ([plain "Poly" a; plain "Init" b; plain "Xor" c; plain "Flags" d], l)
  | 0x4B =>
    let (ty, l) := read_u8 l in let (n, l) := read_u16 l in
    let (r, l) := enum_values (N.to_nat n) ty l in (plain "Type" ty :: plain "Count" n :: r, l)
  | 0x51 => let (k, l) := read_u16 l in let (t, l) := read_u32 l in ([plain "KeyID" k; plain "TableOff" t], l)
  | 0x52 | 0x50 => let (v, l) := read_u32 l in ([("Offset", toS 4 v)], l)
  | 0x60 | 0x78 => let (k, l) := read_u16 l in ([plain "KeyID" k], l)
  | 0x61 => let (v, l) := read_u64 l in ([plain "Val" v], l)
  | 0x65 => let (ty, l) := read_u8 l in ([plain "Type" ty], l)
  | 0x23 | 0x24 => let (v, l) := read_u8 l in ([plain "Align" v], l)
  | _ => ([], l)
  end.

(** A line of the listing: offset, opcode (shown by [op_name]) and what follows *)
Record line := { l_offset : N; l_op : N; l_items : list item }.

(** The loop of the disassembler, cmd_inspect.c:203-452; every step takes at least one byte, so that [length l] steps suffice *)
Fixpoint listing (rtl : bool) (fuel : nat) (off : N) (l : list N) : option (list line) :=
  match l with
  | [] => Some []
  | op :: l1 =>
    match fuel with
    | O => None
    | S fuel =>
      let (its, l2) := operands rtl op l1 in
      option_map (cons {| l_offset := off mod 2 ^ 32; l_op := op; l_items := its |}) (listing rtl fuel (off + (lenN l - lenN l2)) l2)
    end
  end.

(** The string table, cmd_inspect.c:184-194: each string is read up to its NUL, which may lie outside the file *)
Fixpoint cut_string (l : list N) : result (list N * list N) :=
  match l with
  | [] => Ub UIl
  | b :: r => if b =? 0 then Ok ([], r) else let! x := cut_string r in Ok (b :: fst x, snd x)
  end.
Fixpoint strings (n : nat) (l : list N) : result (list (list N)) :=
  match n with
  | O => Ok []
  | S n => let! x := cut_string l in let! r := strings n (snd x) in Ok (fst x :: r)
  end.

(** cmd_inspect, cmd_inspect.c:144-457, for the contents of the file: not an image; the model's fuel was used up (never, C63_ends); or header, strings and lines *)
Inductive inspection := NoImage | Endless | Inspection (version count str_offset bc_offset : Z) (strs : list (list N)) (lines : list line).
Definition inspect (rtl : bool) (data : list N) : result inspection :=
  if lenN data <? 16 then Ok NoImage
  else
    let! m := magic_ok data in
    if negb m then Ok NoImage
    else
      let at_ (n : nat) (p : N) := le_val (sub data p (N.of_nat n)) in
      let count := at_ 2%nat 6 in
      let str_offset := at_ 4%nat 8 in
      let bc_offset := at_ 4%nat 12 in
      let! strs := if str_offset <? lenN data then strings (N.to_nat count) (skipn (N.to_nat str_offset) data) else Ok [] in
      let code := skipn (N.to_nat bc_offset) data in
      match listing rtl (length code) 0 code with
      | Some ls => Ok (Inspection (Z.of_N (at_ 1%nat 5)) (Z.of_N count) (toS 4 str_offset) (toS 4 bc_offset) strs ls)
      | None => Ok Endless
      end.
