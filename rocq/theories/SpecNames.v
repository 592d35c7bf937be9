(** Programs as lists of instructions, and what it means to change only the names they refer to. *)
From Verif Require Import Base SpecBytes SpecVM.

(** An instruction: its opcode, the numbers of the names it refers to (two bytes each, least
    significant first, right after the opcode) and its other operand bytes. *)
Record instr := { opcode : N; refs : list N; args : list N }.
Definition instr_bytes (i : instr) : list N := opcode i :: flat_map (le_bytes 2) (refs i) ++ args i.
Definition code (p : list instr) : list N := flat_map instr_bytes p.

(** Sizes of the scalar types used as operands *)
Definition value_bytes (t : N) : N :=
  match t with
  | 0x10 | 0x14 | 0x1A => 1 | 0x11 | 0x15 => 2 | 0x12 | 0x16 | 0x18 => 4 | 0x13 | 0x17 | 0x19 => 8
  | _ => 0
  end.

(** How many names an instruction refers to *)
Definition names_of (op : N) : N :=
  match op with
  | 0x03 | 0x07 | 0x10 | 0x11 | 0x12 | 0x13 | 0x14 | 0x15 | 0x16 | 0x17 | 0x18 | 0x19 | 0x1A | 0x20 | 0x21 | 0x22
  | 0x30 | 0x31 | 0x32 | 0x33 | 0x34 | 0x35 | 0x36 | 0x37 | 0x39 | 0x3A | 0x40 | 0x51 | 0x60 | 0x78 => 1
  | 0x3B => 2
  | _ => 0
  end.

(** The other operands, as the compiler writes them: of a fixed length, or a type and values of that
    type (constants, ranges), or a type, a count and values (enums), or a count and 8-byte values
    (polynomials and splines). *)
Definition args_fit (op : N) (a : list N) : bool :=
  match op with
  | 0x05 | 0x20 | 0x21 | 0x22 | 0x23 | 0x24 | 0x65 => lenN a =? 1
  | 0x30 => lenN a =? 2
  | 0x34 | 0x39 | 0x50 | 0x51 | 0x52 | 0x53 => lenN a =? 4
  | 0x44 => lenN a =? 7
  | 0x45 | 0x46 | 0x47 | 0x48 | 0x61 => lenN a =? 8
  | 0x49 => lenN a =? 13
  | 0x43 => lenN a =? 16
  | 0x40 | 0x41 => match a with t :: v => lenN v =? value_bytes t | _ => false end
  | 0x42 => match a with t :: v => lenN v =? 2 * value_bytes t | _ => false end
  | 0x4B => match a with t :: c :: d :: v => lenN v =? (c + 256 * d) * value_bytes t | _ => false end
  | 0x4C => match a with n :: v => lenN v =? n * 8 | _ => false end
  | 0x4D => match a with n :: v => lenN v =? n * 16 | _ => false end
  | _ => lenN a =? 0
  end.

(** A well-formed instruction whose names are among [names] *)
Definition well_formed (names : list (list N)) (i : instr) : Prop :=
  opcode i < 256 /\ wf_bytes (args i) /\ args_fit (opcode i) (args i) = true /\
  lenN (refs i) = names_of (opcode i) /\ Forall (fun k => k < lenN names /\ k < 65536) (refs i).

(** [k] among [old] and [k'] among [new] are the same name *)
Definition same_name (old new : list (list N)) (k k' : N) : Prop :=
  k < lenN old /\ k' < lenN new /\ nth (N.to_nat k) old [] = nth (N.to_nat k') new [].

(** Two instructions that differ only in how the names they refer to are numbered *)
Definition same_instr (old new : list (list N)) (i j : instr) : Prop :=
  opcode i = opcode j /\ args i = args j /\ Forall2 (same_name old new) (refs i) (refs j).

(** The names a program refers to *)
Definition referenced (names : list (list N)) (p : list instr) (s : list N) : Prop :=
  exists i k, In i p /\ In k (refs i) /\ k < lenN names /\ nth (N.to_nat k) names [] = s.

(** The instructions the optimiser reads as they are written: all but the emission of a computed value
    (EMIT), the polynomial and spline transforms, the unused opcodes RAW_BYTES and SWITCH_TABLE, and
    constants pushed on the stack that are not below 256, or are 19, 23 or 25. *)
Definition optimiser_reads (i : instr) : Prop :=
  ~ In (opcode i) [0x39; 0x4C; 0x4D; 0x53; 0x65] /\ opcode i <> 0x06 /\
  (opcode i = 0x61 -> exists v, v < 256 /\ ~ In v [19; 23; 25] /\ args i = v :: [0; 0; 0; 0; 0; 0; 0]).

(** The instructions the copier of nested structures reads as they are written: fixed-length ones with at most
    one name.  A one-bit boolean's width, which it takes for an instruction, must be 1 or 2. *)
Definition copier_reads (i : instr) : Prop :=
  In (opcode i)
    [0x00; 0x01; 0x02; 0x03; 0x04; 0x07; 0x10; 0x11; 0x12; 0x13; 0x14; 0x15; 0x16; 0x17; 0x18; 0x19; 0x1A;
     0x20; 0x21; 0x22; 0x23; 0x24; 0x25; 0x26; 0x30; 0x31; 0x32; 0x33; 0x34; 0x35; 0x36; 0x37; 0x38; 0x39; 0x3A; 0x50; 0x51; 0x52;
     0x60; 0x61; 0x62; 0x63; 0x64; 0x65; 0x69; 0x6A; 0x6B; 0x6C; 0x6D; 0x6E; 0x6F; 0x70; 0x71; 0x72; 0x73; 0x74;
     0x75; 0x76; 0x77; 0x78; 0x80; 0x81; 0x82; 0x83; 0x84; 0x85; 0x86; 0x87; 0x88; 0x89; 0x8A; 0x8B; 0x90; 0x91;
     0x92; 0x93; 0x94; 0x95; 0x96; 0x97; 0xA0; 0xA1; 0xA2; 0xA3; 0xA4; 0xA5] /\
  (opcode i = 0x22 -> args i = [1] \/ args i = [2]).

(** [i] with its name replaced: name number [k] of [old] became "prefix.name" in [new] ('.' is 46) *)
Definition prefixed_name (old new : list (list N)) (prefix : list N) (k k' : N) : Prop :=
  k < lenN old /\ k' < lenN new /\ nth (N.to_nat k') new [] = prefix ++ [46] ++ nth (N.to_nat k) old [].
Definition prefixed_instr (old new : list (list N)) (prefix : list N) (i j : instr) : Prop :=
  opcode i = opcode j /\ args i = args j /\ Forall2 (prefixed_name old new prefix) (refs i) (refs j).
