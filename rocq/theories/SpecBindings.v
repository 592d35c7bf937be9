(** What the constants of a C header are, how the header is written, and how the bindings name and write them *)
From Coq Require Import Strings.String.
From Verif Require Import Base ModelText.
Local Open Scope string_scope.
Local Open Scope list_scope.
Local Open Scope N_scope.

(** ** Integer literals that mean the same in C, Go, Python and TypeScript *)
Definition dec_digit (c : N) : Prop := 48 <= c <= 57.
Definition hex_digit (c v : N) : Prop := (48 <= c <= 57 /\ v = c - 48) \/ (65 <= c <= 70 /\ v = c - 55) \/ (97 <= c <= 102 /\ v = c - 87).
Inductive dec_value : list N -> Z -> Prop :=
| dec_nil : dec_value [] 0
| dec_snoc l z c : dec_value l z -> dec_digit c -> dec_value (l ++ [c]) (10 * z + (Z.of_N c - 48)).
Inductive hex_value : list N -> Z -> Prop :=
| hex_nil : hex_value [] 0
| hex_snoc l z c v : hex_value l z -> hex_digit c v -> hex_value (l ++ [c]) (16 * z + Z.of_N v).
Inductive literal : list N -> Z -> Prop :=
| lit_zero : literal [48] 0
| lit_dec c l z : c <> 48 -> dec_value (c :: l) z -> literal (c :: l) z
| lit_neg c l z : c <> 48 -> dec_value (c :: l) z -> literal (45 :: c :: l) (- z)
| lit_hex c l z : hex_value (c :: l) z -> literal (chars "0x" ++ c :: l) z.

(** ** The header: definitions of opcodes, enumerations, and lines of other kinds *)
Definition capital (c : N) : Prop := 65 <= c <= 90.
Definition ident_char (c : N) : Prop := 48 <= c <= 57 \/ 65 <= c <= 90 \/ 97 <= c <= 122 \/ c = 95.
(** An entry of an enumeration: its name, and its value if one is written *)
Definition entry := (list N * option (list N))%type.
Inductive chunk :=
| Define (name value : list N)      (* #define OP_name value *)
| Enum (es : list entry)
| Line (l : list N).                (* anything else *)
(** The constants of an enumeration in C: the value written, or one more than that of the entry before; [next] is 0 at the first *)
Inductive numbered : Z -> list entry -> list (list N * Z) -> Prop :=
| num_nil next : numbered next [] []
| num_given next name text z es l : literal text z -> numbered (z + 1) es l -> numbered next ((name, Some text) :: es) ((name, z) :: l)
| num_next next name es l : numbered (next + 1) es l -> numbered next ((name, None) :: es) ((name, next) :: l).
(** The constants of the header *)
Inductive constants : list chunk -> list (list N * Z) -> Prop :=
| con_nil : constants [] []
| con_define name text z cs l : literal text z -> constants cs l -> constants (Define name text :: cs) ((chars "OP_" ++ name, z) :: l)
| con_enum es vs cs l : numbered 0 es vs -> constants cs l -> constants (Enum es :: cs) (vs ++ l)
| con_line t cs l : constants cs l -> constants (Line t :: cs) l.

(** How it is written *)
Definition blank (c : N) : Prop := c = 32 \/ c = 9.
Definition blanks : list N -> Prop := Forall blank.
Definition remark (l : list N) : Prop := l = [] \/ exists r, l = chars "//" ++ r /\ Forall (fun c => c <> 10 /\ c <> 0) r.
Definition fits_line (l : list N) : Prop := lenN l <= 1022.
Inductive define_line (name value : list N) : list N -> Prop :=
| def_line a b c r : blanks a -> a <> [] -> blanks b -> b <> [] -> blanks c -> remark r ->
    define_line name value (chars "#define" ++ a ++ chars "OP_" ++ name ++ b ++ value ++ c ++ r).
Inductive entry_line : entry -> list N -> Prop :=
| ent_bare name a b comma c r : blanks a -> blanks b -> (comma = [] \/ comma = [44]) -> blanks c -> remark r ->
    entry_line (name, None) (a ++ name ++ b ++ comma ++ c ++ r)
| ent_given name value a b d e comma c r : blanks a -> blanks b -> blanks d -> blanks e -> (comma = [] \/ comma = [44]) -> blanks c -> remark r ->
    entry_line (name, Some value) (a ++ name ++ b ++ [61] ++ d ++ value ++ e ++ comma ++ c ++ r).
(** A line of another kind: its first word is neither CND_... nor #define with OP_... behind it *)
Definition other_line (l : list N) : Prop :=
  exists code r, l = code ++ r /\ Forall (fun c => 0 < c < 128 /\ c <> 10) code /\ remark r /\
  (forall a t, code <> a ++ chars "//" ++ t) /\
  (forall a t, Forall (fun c => c = 32 \/ 9 <= c <= 13) a -> code <> a ++ chars "CND_" ++ t) /\
  (forall a t, Forall (fun c => c = 32 \/ 9 <= c <= 13) a -> code <> chars "#define" ++ a ++ chars "OP_" ++ t).
Inductive entry_lines : list entry -> list N -> Prop :=
| els_nil : entry_lines [] []
| els_cons e es l t : entry_line e l -> fits_line l -> entry_lines es t -> entry_lines (e :: es) (l ++ [10] ++ t).
Inductive header : list chunk -> list N -> Prop :=
| hdr_nil : header [] []
| hdr_define name value l cs t : define_line name value l -> fits_line l -> header cs t -> header (Define name value :: cs) (l ++ [10] ++ t)
| hdr_enum es l cs t : entry_lines es l -> header cs t -> header (Enum es :: cs) (l ++ t)
| hdr_line l cs t : other_line l -> fits_line l -> header cs t -> header (Line l :: cs) (l ++ [10] ++ t).

(** Limits of the arrays of the generator, and names as C has them.  An enumeration starts with a value. *)
Definition good_name (n : list N) : Prop := n <> [] /\ Forall ident_char n /\ lenN n <= 250.
Definition good_entry (e : entry) : Prop :=
  good_name (fst e) /\ (exists r, fst e = chars "CND_" ++ r) /\ match snd e with Some v => lenN v <= 255 | None => True end.
Definition good_chunk (c : chunk) : Prop :=
  match c with
  | Define n v => good_name n /\ lenN v <= 255
  | Enum es => Forall good_entry es /\ match es with (_, None) :: _ => False | _ => True end
  | Line _ => True
  end.

(** ** The bindings: names in PascalCase, without the prefix of the group *)
Definition big (c : N) : N := if (97 <=? c) && (c <=? 122) then c - 32 else c.
Definition small (c : N) : N := if (65 <=? c) && (c <=? 90) then c + 32 else c.
Definition title (w : list N) : list N :=
  if in_dec (list_eq_dec N.eq_dec) w (map chars ["OOB"; "CRC"; "ID"; "VM"]) then w else match w with [] => [] | c :: r => big c :: map small r end.
(** The words of a name: what stands between underscores *)
Inductive words : list N -> list (list N) -> Prop :=
| wd_last w : ~ In 95 w -> words w [w]
| wd_more w n ws : ~ In 95 w -> words n ws -> words (w ++ 95 :: n) (w :: ws).
Definition pascal_name (n p : list N) : Prop := exists ws, words n ws /\ p = flat_map title ws.

(** The groups: prefix in C, prefix in the bindings *)
Definition named (cprefix prefix : list N) (c p : list N) : Prop := exists n q, c = cprefix ++ n /\ pascal_name n q /\ p = prefix ++ q.
Definition has_prefix (p : list N) (c : list N * Z) : bool := if list_eq_dec N.eq_dec (firstn (List.length p) (fst c)) p then true else false.
Inductive group := Errors | Modes | Transforms | Opcodes | Orders.
Definition member (g : group) (c : list N * Z) : bool :=
  match g with
  | Errors => has_prefix (chars "CND_ERR_") c
  | Modes => has_prefix (chars "CND_MODE_") c
  | Transforms => has_prefix (chars "CND_TRANS_") c
  | Opcodes => has_prefix (chars "OP_") c
  | Orders => has_prefix (chars "CND_LE") c || has_prefix (chars "CND_BE") c
  end.
Definition name_in (g : group) : list N -> list N -> Prop :=
  match g with
  | Errors => named (chars "CND_ERR_") (chars "Err")
  | Modes => named (chars "CND_MODE_") (chars "Mode")
  | Transforms => named (chars "CND_TRANS_") (chars "Trans")
  | Opcodes => named (chars "OP_") (chars "Op")
  | Orders => named (chars "CND_") []
  end.
(** What the bindings declare in a group: for each constant of the header, in the same order, its name there and a text of its value *)
Definition declared (g : group) (cs : list (list N * Z)) (ds : list (list N * list N)) : Prop :=
  Forall2 (fun c d => name_in g (fst c) (fst d) /\ literal (snd d) (snd c)) (filter (member g) cs) ds.

(** ** The files *)
Definition endl : list N := [10].
Definition listing (first : list N) (before between behind last : list N) (ds : list (list N * list N)) : list N :=
  match ds with
  | [] => []
  | _ => first ++ flat_map (fun d => before ++ fst d ++ between ++ snd d ++ behind ++ endl) ds ++ last
  end.
Definition go_consts (type : string) (last : list N) : list (list N * list N) -> list N :=
  listing (chars "const (" ++ endl) [9] (chars type ++ chars " = ") [] (chars ")" ++ endl ++ last).
Definition go_file (errors modes transforms opcodes orders : list (list N * list N)) : list N :=
  flat_map (fun s => chars s ++ endl)
    ["// Code generated by gen_bindings.c; DO NOT EDIT."; "package concordia"; ""; "type Error int"; "type Mode int"; "type Trans int"; "type OpCode uint8"; ""] ++
  go_consts " Error" endl errors ++ go_consts " Mode" endl modes ++ go_consts " Trans" endl transforms ++ go_consts " OpCode" endl opcodes ++ go_consts "" [] orders.
Definition python_enum (name : string) : list (list N * list N) -> list N :=
  listing (chars "class " ++ chars name ++ chars "(IntEnum):" ++ endl) (chars "    ") (chars " = ") [] endl.
Definition python_file (errors modes transforms opcodes : list (list N * list N)) : list N :=
  flat_map (fun s => chars s ++ endl) ["# Code generated by gen_bindings.c; DO NOT EDIT."; "from enum import IntEnum"; ""] ++
  python_enum "Error" errors ++ python_enum "Mode" modes ++ python_enum "Trans" transforms ++ python_enum "OpCode" opcodes.
Definition typescript_enum (name : string) : list (list N * list N) -> list N :=
  listing (chars "export enum " ++ chars name ++ chars " {" ++ endl) (chars "    ") (chars " = ") (chars ",") (chars "}" ++ endl ++ endl).
Definition typescript_file (errors modes transforms opcodes : list (list N * list N)) : list N :=
  flat_map (fun s => chars s ++ endl) ["// Code generated by gen_bindings.c; DO NOT EDIT."; ""] ++
  typescript_enum "Error" errors ++ typescript_enum "Mode" modes ++ typescript_enum "Trans" transforms ++ typescript_enum "OpCode" opcodes.

(** ** Names that stay apart: words start with a letter, and no two words of one letter follow each other *)
Definition lone (w : list N) : bool := match w with [_] => true | _ => false end.
Fixpoint lones_apart (ws : list (list N)) : Prop :=
  match ws with w :: ((v :: _) as r) => lone w && lone v = false /\ lones_apart r | _ => True end.
Definition plain_word (w : list N) : Prop := match w with [] => False | c :: r => capital c /\ Forall (fun d => capital d \/ 48 <= d <= 57) r end.
Definition plain_name (n : list N) : Prop := exists ws, words n ws /\ Forall plain_word ws /\ lones_apart ws.
