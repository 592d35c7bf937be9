(** * Completions: handle_completion, cmd_lsp.c:404-768

    What is offered where the cursor stands: labels and kinds.  Not modelled: the detail and documentation of an item. *)
From Coq Require Import Strings.String.
From Verif Require Import Base ModelWord ModelTrans ModelVM ModelText ModelParse ModelSchema ModelLsp ModelDiag.
Local Open Scope string_scope.
Local Open Scope list_scope.
Local Open Scope N_scope.

(** Where the cursor is in the text: past [line] newlines, and [character] further, as size_t (cmd_lsp.c:531-539).  The loop ends at the
    NUL after the text. *)
Fixpoint line_start (src : list N) (line : Z) : N :=
  match src with
  | [] => 0
  | c :: r => if (c =? 0) || (line <=? 0)%Z then 0 else 1 + line_start r (if c =? 10 then (line - 1)%Z else line)
  end.
Definition cursor (src : list N) (line character : Z) : N := Z.to_N ((Z.of_N (line_start src line) + character) mod 2 ^ 64).

(** The scan, cmd_lsp.c:541-612: the decorator whose arguments the cursor is in, with the depth of its parenthesis; the structure or packet,
    with the depth of its brace; the last two tokens *)
Record scan := mkscan { c_deco : option (list N * Z); c_paren : Z; c_struct : option (list N * Z); c_brace : Z; c_prev : token; c_prev2 : token }.
(** 523-524: two tokens of kind TOK_EOF *)
Definition scan0 : scan := mkscan None 0 None 0 token0 token0.
Definition opens_decorator (s : scan) : bool := is_kind TIdentifier (c_prev s) && is_kind TAt (c_prev2 s).
Definition opens_struct (s : scan) : bool := is_kind TIdentifier (c_prev s) && (is_kind TStruct (c_prev2 s) || is_kind TPacket (c_prev2 s)).
Definition closes (o : option (list N * Z)) (depth : Z) : option (list N * Z) :=
  match o with Some (_, d) => if (depth =? d)%Z then None else o | None => None end.
Definition scan_token (s : scan) (t : token) : scan :=
  let (deco, paren) :=                                                                      (* 566-582 *)
    match tk t with
    | TLparen => (if opens_decorator s then Some (ttext (c_prev s), c_paren s + 1)%Z else c_deco s, (c_paren s + 1)%Z)
    | TRparen => (closes (c_deco s) (c_paren s), (c_paren s - 1)%Z)
    | _ => (c_deco s, c_paren s)
    end in
  let (struct, brace) :=                                                                    (* 585-608 *)
    match tk t with
    | TLbrace => (if opens_struct s then Some (ttext (c_prev s), c_brace s + 1)%Z else c_struct s, (c_brace s + 1)%Z)
    | TRbrace => (closes (c_struct s) (c_brace s), (c_brace s - 1)%Z)
    | _ => (c_struct s, c_brace s)
    end in
  mkscan deco paren struct brace t (c_prev s).
(** 558-563: up to the end of the file or the cursor *)
Fixpoint scan_tokens (offset : N) (toks : list token) (s : scan) : scan :=
  match toks with
  | [] => s
  | t :: r => if is_kind TEof t then s else if offset <=? tpos t then s else scan_tokens offset r (scan_token s t)
  end.

(** An item of the list: its label and kind *)
Definition offer := (list N * N)%type.

(** ** The fields of a structure, found in its code *)

(** read_u8 and read_u16, cmd_lsp.c:405-415: nothing is read past the end.  A pointer behind the end stays there: [skipn]. *)
Definition take_u16 (l : list N) : N * list N := match l with a :: b :: r => (a + 256 * b, r) | _ => (0, l) end.
Definition take_u8 (l : list N) : N * list N := match l with a :: r => (a, r) | [] => (0, []) end.
(** The size of a number of the type, by CONST_WRITE, CONST_CHECK, RANGE_CHECK and ENUM_CHECK (433-468) *)
Definition write_size (ty : N) : nat := match ty with 0x10 => 1%nat | 0x11 => 2%nat | 0x12 => 4%nat | 0x13 => 8%nat | _ => 0%nat end.
Definition int_size (ty : N) : nat :=
  match ty with 0x10 | 0x14 => 1%nat | 0x11 | 0x15 => 2%nat | 0x12 | 0x16 => 4%nat | 0x13 | 0x17 => 8%nat | _ => 0%nat end.
Definition range_size (ty : N) : nat := match ty with 0x18 => 8%nat | 0x19 => 16%nat | _ => (2 * int_size ty)%nat end.
(** skip_instruction, cmd_lsp.c:417-489, after the opcode *)
Definition skip_instruction (op : N) (l : list N) : list N :=
  match op with
  | 0x05 | 0x23 | 0x24 => skipn 1 l
  | 0x07 | 0x60 | 0x78 => skipn 2 l
  | 0x39 | 0x51 => skipn 6 l
  | 0x41 => let (ty, r) := take_u8 l in skipn (write_size ty) r
  | 0x40 => let (ty, r) := take_u8 (skipn 2 l) in skipn (int_size ty) r
  | 0x42 => let (ty, r) := take_u8 l in skipn (range_size ty) r
  | 0x43 => skipn 16 l
  | 0x45 | 0x46 | 0x47 | 0x48 | 0x61 => skipn 8 l
  | 0x4C => let (n, r) := take_u8 l in skipn (N.to_nat n * 8) r
  | 0x4D => let (n, r) := take_u8 l in skipn (N.to_nat n * 16) r
  | 0x44 => skipn 7 l
  | 0x49 => skipn 13 l
  | 0x4B => let (ty, r) := take_u8 l in let (n, r) := take_u16 r in skipn (N.to_nat n * int_size ty) r
  | 0x50 | 0x52 => skipn 4 l
  | _ => l
  end.
(** The operations with a key, and how much follows the key (cmd_lsp.c:675-704) *)
Definition keyed (op : N) : option nat :=
  match op with
  | 0x10 | 0x11 | 0x12 | 0x13 | 0x14 | 0x15 | 0x16 | 0x17 | 0x18 | 0x19 | 0x1A | 0x22 | 0x31 | 0x32 | 0x33 | 0x35 | 0x36 | 0x37
  | 0x03 | 0x60 | 0x78 => Some 0%nat
  | 0x20 | 0x21 => Some 1%nat
  | 0x30 => Some 2%nat
  | 0x34 => Some 4%nat
  | _ => None
  end.
(** 669-708.  Every round takes the opcode away: as many rounds as there are bytes are enough. *)
Fixpoint code_fields (strs : list (list N)) (fuel : nat) (l : list N) : list (list N) :=
  match fuel, l with
  | S f, op :: r =>
    match keyed op with
    | Some more =>
      let (key, r) := take_u16 r in
      match nth_error strs (N.to_nat key) with Some n => if op =? 0x03 then [] else [cstr n] | None => [] end ++ code_fields strs f (skipn more r)
    | None => code_fields strs f (skip_instruction op r)
    end
  | _, _ => []
  end.

(** ** The list, cmd_lsp.c:637-748 *)
Definition kind_keyword := 14. Definition kind_function := 3. Definition kind_field := 5.
Definition kind_struct := 7. Definition kind_enum := 13. Definition kind_member := 20.
Definition word_items : list string :=
  ["struct"; "packet"; "enum"; "import"; "true"; "false"; "prefix"; "string"; "const"; "range"; "if"; "else"; "switch"; "case"; "default"].
Definition function_items : list string := ["sin"; "cos"; "tan"; "sqrt"; "log"; "abs"; "pow"; "int"; "float"].
Definition offers (p : pst) (s : scan) : list offer :=
  let is (w : string) := match c_deco s with Some (d, _) => same_text d (chars w) | None => false end in
  let of_struct :=
    match c_struct s with
    | Some (n, _) => match find_struct (p_structs p) n with Some code => map (fun f => (f, kind_field)) (code_fields (p_strs p) (List.length code) code) | None => [] end
    | None => []
    end in
  match (if is_kind TDot (c_prev s) && is_kind TIdentifier (c_prev2 s) then find_enum (p_enums p) (ttext (c_prev2 s)) else None) with
  | Some e => map (fun m => (fst m, kind_member)) (en_vals e)
  | None =>
    if is "expr" then map (fun f => (chars f, kind_function)) function_items ++ of_struct
    else if is "count" || is "len" then of_struct
    else
      map (fun w => (chars w, kind_keyword)) word_items ++
      map (fun b => (64 :: chars (fst (fst b)), kind_function)) builtins ++                (* none is longer than the 64 bytes of the label *)
      map (fun d => (fst d, kind_struct)) (p_structs p) ++ map (fun e => (en_name e, kind_enum)) (p_enums p)
  end.
(** [CoUndef]: with more than 1024 errors, freeing their messages reads past the array (762-765) *)
Inductive completed := Offered (l : list offer) | CoUndef | CoUb (u : ubk) | CoFuel.
Definition complete (E : env) (fuel : nat) (path src : list N) (line character : Z) : completed :=
  match lex src, analyse E fuel path src with
  | Some toks, POk _ p =>
    if (kept <? List.length (p_errs p))%nat then CoUndef
    else Offered (offers p (scan_tokens (cursor src line character) toks scan0))
  | _, PUb u => CoUb u
  | _, _ => CoFuel
  end.
