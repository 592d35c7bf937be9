(** What a listing of a program should say: each instruction at its place, with its operands as numbers under their names. *)
From Coq Require Import Strings.String.
From Verif Require Import Base SpecBytes SpecVM SpecNames ModelInspect.
Local Open Scope string_scope. Local Open Scope N_scope.

(** An operand: its name, its number of bytes, and whether it is signed *)
Definition operand : Type := string * nat * bool.
Definition whole_type (t : N) : bool := (0x10 <=? t) && (t <=? 0x17).
Definition of_type (s : string) (t : N) : operand := (s, N.to_nat (value_bytes t), type_signed t).

(** The operands after the names.  Constants to compare with are shown by their bits, so without sign. *)
Definition layout (op : N) (a : list N) : list operand :=
  match op with
  | 0x05 => [("Ver", 1%nat, false)]
  | 0x20 | 0x21 => [("Bits", 1%nat, false)]
  | 0x23 | 0x24 => [("Align", 1%nat, false)]
  | 0x65 => [("Type", 1%nat, false)]
  | 0x30 => [("MaxLen", 2%nat, false)]
  | 0x34 | 0x39 => [("Count", 4%nat, true)]
  | 0x50 | 0x52 => [("Offset", 4%nat, true)]
  | 0x51 => [("TableOff", 4%nat, false)]
  | 0x44 => [("Poly", 2%nat, false); ("Init", 2%nat, false); ("Xor", 2%nat, false); ("Flags", 1%nat, false)]
  | 0x49 => [("Poly", 4%nat, false); ("Init", 4%nat, false); ("Xor", 4%nat, false); ("Flags", 1%nat, false)]
  | 0x45 | 0x46 | 0x47 | 0x48 => [("Val", 8%nat, true)]
  | 0x61 => [("Val", 8%nat, false)]
  | 0x43 => [("Factor", 8%nat, false); ("Offset", 8%nat, false)]
  | 0x40 | 0x41 => [("Type", 1%nat, false); ("Val", N.to_nat (value_bytes (hd 0 a)), false)]
  | 0x42 => ("Type", 1%nat, false) :: if whole_type (hd 0 a) then [of_type "Range" (hd 0 a); of_type "to" (hd 0 a)] else []
  | 0x4B => [("Type", 1%nat, false); ("Count", 2%nat, false)] ++ repeat (of_type "Value" (hd 0 a)) (N.to_nat (le_val (sub a 1 2)))
  | 0x4C => ("Count", 1%nat, false) :: repeat ("Coeff", 8%nat, false) (N.to_nat (hd 0 a))
  | 0x4D => ("Count", 1%nat, false) :: concat (repeat [("X", 8%nat, false); ("Y", 8%nat, false)] (N.to_nat (hd 0 a)))
  | _ => []
  end.
Fixpoint numbers (f : list operand) (b : list N) : list item :=
  match f with
  | [] => []
  | (s, n, sg) :: f => (s, number (N.of_nat n) sg (le_val (firstn n b))) :: numbers f (skipn n b)
  end.
Definition name_items (r : list N) : list item :=
  match r with
  | [k] => [("KeyID", Z.of_N k)]
  | [k; k'] => [("KeyID", Z.of_N k); ("RefKeyID", Z.of_N k')]
  | _ => []
  end.
Definition shown (i : instr) : list item := name_items (refs i) ++ numbers (layout (opcode i) (args i)) (args i).

(** The lines of a program that starts at [off] *)
Fixpoint lines_of (off : N) (p : list instr) : list line :=
  match p with
  | [] => []
  | i :: p => {| l_offset := off; l_op := opcode i; l_items := shown i |} :: lines_of (off + lenN (instr_bytes i)) p
  end.

(** The instructions the inspector reads as they are written: all but bit booleans, arrays up to the end of the message, and values of
    types it does not know.  (The case table that follows the cases of a switch in the code is no instruction.)  If the compiler that
    built the tool makes the calls in an argument list from right to left ([rtl]), then also no checksums and no ranges of whole numbers. *)
Definition inspector_reads (rtl : bool) (i : instr) : Prop :=
  ~ In (opcode i) [0x06; 0x22; 0x3A; 0x53] /\
  (opcode i = 0x40 \/ opcode i = 0x4B -> whole_type (hd 0 (args i)) = true) /\
  (opcode i = 0x41 -> whole_type (hd 0 (args i)) = true /\ type_signed (hd 0 (args i)) = false) /\
  (opcode i = 0x42 -> hd 0 (args i) <> 0x1A) /\
  (rtl = true -> ~ In (opcode i) [0x44; 0x49] /\ (opcode i = 0x42 -> whole_type (hd 0 (args i)) = false)).
(** Ranges of floating-point numbers are listed without their bounds *)
Definition says_all (i : instr) : Prop := opcode i = 0x42 -> whole_type (hd 0 (args i)) = true.

(** The table of names ends within the file: as many zero bytes as names follow its start *)
Definition table_ends (data : list N) : Prop :=
  le_val (sub data 8 4) < lenN data ->
  le_val (sub data 6 2) <= N.of_nat (count_occ N.eq_dec (skipn (N.to_nat (le_val (sub data 8 4))) data) 0).
Definition is_image (data : list N) : Prop := 16 <= lenN data /\ firstn 5 data = [67; 78; 68; 73; 76].
