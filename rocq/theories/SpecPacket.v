(** Packets of plain fields: how they are written, and the instructions they stand for. *)
From Coq Require Import Strings.String.
From Verif Require Import Base SpecBytes SpecVM ModelText SpecText ModelVM ModelTrans ModelParse SpecParse SpecNames.

(** ** Fields *)

(** A single value, a fixed number, or as many as a counter in front says (1, 2 or 4 bytes wide) *)
Inductive extent := One | Fixed (n : N) | Counted (w : N).
(** Values of a scalar type; a NUL-terminated string of at most so many characters; a string with its length in front *)
Inductive content := Scalar (ty : N) (x : extent) | Text (max : N) | CountedText (w : N).
(** The byte-order decorators in front ([true]: big endian), the content and the name *)
Record field := { f_orders : list bool; f_content : content; f_name : list N }.
(** The byte order the decorators of a field ask for: the last counts *)
Definition f_big (f : field) : bool := last (f_orders f) false.
Definition field_order (f : field) : endian := if f_big f then BE else LE.

(** ** Words *)
Definition type_words : list (N * string) :=
  [(0x10, "uint8"); (0x10, "byte"); (0x10, "u8"); (0x11, "uint16"); (0x11, "u16"); (0x12, "uint32"); (0x12, "u32");
   (0x13, "uint64"); (0x13, "u64"); (0x14, "int8"); (0x14, "i8"); (0x15, "int16"); (0x15, "i16"); (0x16, "int32"); (0x16, "i32");
   (0x17, "int64"); (0x17, "i64"); (0x18, "float"); (0x18, "f32"); (0x19, "double"); (0x19, "f64"); (0x1A, "bool")]%string.
Definition order_words : list (bool * string) :=
  [(true, "big_endian"); (true, "be"); (false, "little_endian"); (false, "le")]%string.
(** In front of a packet, where "be" is not known (see C46) *)
Definition top_order_words : list (bool * string) := [(true, "big_endian"); (false, "little_endian"); (false, "le")]%string.
Definition counter_words : list (N * string) :=
  [(1, "uint8"); (1, "u8"); (2, "uint16"); (2, "u16"); (4, "uint32"); (4, "u32")]%string.

Definition ident (s : string) : word := (TIdentifier, chars s).
Definition sign (k : kind) (s : string) : word := (k, chars s).
(** A decorator without arguments *)
Inductive orders_read (ws : list (bool * string)) : list bool -> list word -> Prop :=
| ord_none : orders_read ws [] []
| ord_more b s l r : In (b, s) ws -> orders_read ws l r -> orders_read ws (b :: l) (sign TAt "@" :: ident s :: r).
(** What is written before and after the name *)
Inductive content_read : content -> list word -> list word -> Prop :=
| read_one ty s : In (ty, s) type_words -> content_read (Scalar ty One) [ident s] []
| read_fixed ty s d n : In (ty, s) type_words -> literal d n -> n < 2 ^ 32 ->
    content_read (Scalar ty (Fixed n)) [ident s] [sign TLbracket "["; (TNumber, d); sign TRbracket "]"]
| read_counted ty s w c : In (ty, s) type_words -> In (w, c) counter_words ->
    content_read (Scalar ty (Counted w)) [ident s] [sign TLbracket "["; sign TRbracket "]"; ident "prefix"; ident c]
| read_text : content_read (Text 255) [ident "string"] []
| read_text_max d n : literal d n -> n < 2 ^ 16 -> content_read (Text n) [ident "string"] [ident "max"; (TNumber, d)]
| read_text_until u d n : literal d n -> n < 2 ^ 16 ->
    content_read (Text n) [ident "string"] [ident "until"; (TNumber, u); ident "max"; (TNumber, d)]
| read_text_counted w c : In (w, c) counter_words -> content_read (CountedText w) [ident "string"] [ident "prefix"; ident c].
Definition field_read (f : field) (ws : list word) : Prop :=
  exists os a b, orders_read order_words (f_orders f) os /\ content_read (f_content f) a b /\
  ws = os ++ a ++ [(TIdentifier, f_name f)] ++ b ++ [sign TSemicolon ";"].
Inductive fields_read : list field -> list word -> Prop :=
| fields_none : fields_read [] []
| fields_more f l ws wr : field_read f ws -> fields_read l wr -> fields_read (f :: l) (ws ++ wr).

(** A file with one packet: byte-order decorators, the name, the fields *)
Record packet := { pk_orders : list bool; pk_name : list N; pk_fields : list field }.
Definition packet_read (k : packet) (ws : list word) : Prop :=
  exists os fs, orders_read top_order_words (pk_orders k) os /\ fields_read (pk_fields k) fs /\
  ws = os ++ [sign TPacket "packet"; (TIdentifier, pk_name k); sign TLbrace "{"] ++ fs ++ [sign TRbrace "}"].
Definition pk_names (k : packet) : list (list N) := map f_name (pk_fields k) ++ [pk_name k].

(** The file at [path] holds the packet [k], in the words [toks]; no two fields share a name *)
Definition holds_packet (E : env) (path : list N) (k : packet) (toks : list token) : Prop :=
  exists src ws, e_read E (e_canon E path) = Some src /\ lex src = Some toks /\ map word_of toks = ws ++ [(TEof, [])] /\
    packet_read k ws /\ NoDup (map f_name (pk_fields k)).

(** ** Instructions, given the numbers of the names *)
Definition ins (op : N) (rs a : list N) : instr := {| opcode := op; refs := rs; args := a |}.
Definition array_op (w : N) : N := match w with 1 => 0x35 | 2 => 0x36 | _ => 0x37 end.
Definition string_op (w : N) : N := match w with 1 => 0x31 | 2 => 0x32 | _ => 0x33 end.
Definition content_instrs (c : content) (k : N) : list instr :=
  match c with
  | Scalar ty One => [ins ty [k] []]
  | Scalar ty (Fixed n) => [ins 0x34 [k] (bytes_of LE 4 n); ins ty [k] []; ins 0x38 [] []]
  | Scalar ty (Counted w) => [ins (array_op w) [k] []; ins ty [k] []; ins 0x38 [] []]
  | Text max => [ins 0x30 [k] (bytes_of LE 2 max)]
  | CountedText w => [ins (string_op w) [k] []]
  end.
Definition field_instrs (id : list N -> N) (f : field) : list instr :=
  (if f_big f then [ins 0x02 [] []] else []) ++ content_instrs (f_content f) (id (f_name f)) ++
  (if f_big f then [ins 0x01 [] []] else []).
Definition packet_instrs (id : list N -> N) (k : packet) : list instr :=
  map (fun b : bool => ins (if b then 0x02 else 0x01) [] []) (pk_orders k) ++
  ins 0x07 [id (pk_name k)] [] :: flat_map (field_instrs id) (pk_fields k).

(** ** Byte orders *)

(** The byte order each field is processed in, starting in order [o] *)
Fixpoint orders_from (o : endian) (fs : list field) : list endian :=
  match fs with
  | [] => []
  | f :: r => if f_big f then BE :: orders_from LE r else o :: orders_from o r
  end.
Definition packet_order (k : packet) : endian := if last (pk_orders k) false then BE else LE.
