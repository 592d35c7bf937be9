(** * The analysis behind the diagnostics of the language server: publish_diagnostics, cmd_lsp.c:881-938

    The server parses the text it was given with the compiler's own parser.  Every call of parser_error sets had_error and records
    an error (cnd_parser.c:190-216).  Not modelled: the messages, and completions (491-768). *)
From Coq Require Import Strings.String.
From Verif Require Import Base ModelWord ModelTrans ModelVM ModelText ModelParse ModelSchema ModelLsp.
Local Open Scope string_scope.
Local Open Scope list_scope.
Local Open Scope N_scope.

(** The parser as publish_diagnostics sets it up, cmd_lsp.c:883-892: unlike cnd_compile_file (cndc.c:289-290) it does not put the
    file itself among the imports *)
Definition editor0 (path : list N) (toks : list token) : pst :=
  mkp toks token0 token0 [] [] [] [] [] path None [] false 0 0 false false 0 false [] [].
Definition analyse (E : env) (fuel : nat) (path src : list N) : pres unit :=
  match lex src with
  | None => PFuel
  | Some toks => (advance ;; top_level E fuel) (editor0 path toks)
  end.
(** ** Where the errors are *)

(** Characters since the last one that [stop]s (cnd_parser.c:194-198, cmd_lsp.c:273-276) *)
Definition since (stop : N -> bool) (l : list N) : N := fold_left (fun n c => if stop c then 0 else n + 1) l 0.
(** The text the token is in: p->lexer.source at the time *)
Definition text_at (E : env) (src : list N) (d : N) (path : list N) : list N :=
  if d =? 0 then src else match e_read E path with Some s => s | None => [] end.
(** One diagnostic: start of its range, line and character from 0 (cnd_parser.c:193-216, cmd_lsp.c:910-918; the range ends one
    character further).  The path is not part of it: every diagnostic is published for the document. *)
Definition diagnostic (E : env) (src : list N) (e : N * list N * token) : Z * Z :=
  let '(d, path, t) := e in
  ((Z.of_N (tline t) - 1)%Z, Z.of_N (since (fun c => (c =? 10) || (c =? 13)) (firstn (N.to_nat (tpos t)) (text_at E src d path)))).
(** The first 1024 errors are kept (cnd_parser.c:201-210), and those are published (cmd_lsp.c:905-907) *)
Definition kept : nat := 1024.
Definition diagnostics (E : env) (src : list N) (p : pst) : list (Z * Z) := map (diagnostic E src) (firstn kept (rev (p_errs p))).

(** What comes out: the diagnostics, and the files opened for imports; undefined behaviour; out of fuel *)
Inductive shown := Shown (diags : list (Z * Z)) (opened : list (list N)) | SUndef (u : ubk) | SFuel.
Definition diagnose (E : env) (fuel : nat) (path src : list N) : shown :=
  match analyse E fuel path src with
  | POk _ p => Shown (diagnostics E src p) (map cstr (p_imports p))
  | PUb u => SUndef u
  | PFuel => SFuel
  end.

(** ** What is at a position: analyze_source, cmd_lsp.c:215-358 *)

(** The first token on the line that the position touches, and whether an @ is before it (246-283) *)
Fixpoint token_at (src : list N) (line character : Z) (prev : kind) (toks : list token) : option (token * bool) :=
  match toks with
  | [] => None
  | t :: r =>
    let at_line := (Z.of_N (tline t) - 1)%Z in
    let col := Z.of_N (since (fun c => c =? 10) (firstn (N.to_nat (tpos t)) src)) in
    match tk t with
    | TEof => None
    | k =>
      if ((at_line =? line) && (col <=? character) && (character <=? col + Z.of_N (lenN (ttext t))))%Z
      then Some (t, if kind_eq_dec prev TAt then true else false)
      else if (line <? at_line)%Z then None else token_at src line character k r
    end
  end.

(** BUILTIN_DECORATORS, cmd_lsp.c:23-56: name, documentation, detail *)
Definition builtins : list (string * string * string) :=
  [("version", "Sets the version of the schema.", "version(1)");
   ("import", "Imports another CND file.", "import(""path/to/file.cnd"")");
   ("big_endian", "Sets the byte order to Big Endian for the following fields.", "big_endian");
   ("be", "Alias for @big_endian.", "be");
   ("little_endian", "Sets the byte order to Little Endian for the following fields.", "little_endian");
   ("le", "Alias for @little_endian.", "le");
   ("unaligned_bytes", "Marks a struct as containing unaligned bitfields.", "unaligned_bytes");
   ("fill", "Inserts padding bits/bytes. Can be used as a standalone statement.", "fill(1) or fill(0)");
   ("crc_refin", "Sets CRC input reflection.", "crc_refin");
   ("crc_refout", "Sets CRC output reflection.", "crc_refout");
   ("optional", "Marks a field as optional (implementation specific).", "optional");
   ("count", "Sets the count for an array (fixed number or variable reference).", "count(N) or count(field_name)");
   ("len", "Alias for @count.", "len(N) or len(field_name)");
   ("const", "Enforces a constant value for a field.", "const(VALUE)");
   ("match", "Alias for @const.", "match(VALUE)");
   ("pad", "Inserts padding bits.", "pad(BITS)");
   ("range", "Enforces a value range.", "range(MIN, MAX)");
   ("crc", "Calculates CRC over previous fields.", "crc(WIDTH)");
   ("crc_poly", "Sets CRC polynomial.", "crc_poly(POLY)");
   ("crc_init", "Sets CRC initial value.", "crc_init(VAL)");
   ("crc_xor", "Sets CRC XOR value.", "crc_xor(VAL)");
   ("scale", "Applies linear scaling (y = x * scale + offset).", "scale(FACTOR)");
   ("offset", "Applies offset for scaling.", "offset(VAL)");
   ("mul", "Multiplies value by factor.", "mul(FACTOR)");
   ("div", "Divides value by factor.", "div(FACTOR)");
   ("add", "Adds value.", "add(VAL)");
   ("sub", "Subtracts value.", "sub(VAL)");
   ("poly", "Applies polynomial transformation.", "poly(c0, c1, ...)");
   ("spline", "Applies spline transformation.", "spline(x0, y0, x1, y1, ...)");
   ("expr", "Calculates a value based on an expression.", "expr(expression)");
   ("eof", "Marks a byte array to consume all remaining bytes in the stream.", "eof")].
Definition builtin (name : list N) : option (list N * list N) :=
  match find (fun b => same_text (chars (fst (fst b))) name) builtins with
  | Some (_, doc, detail) => Some (chars doc, chars detail)
  | None => None
  end.

(** get_type_name, cmd_lsp.c:183-198 *)
Definition type_word (op : N) : string :=
  match op with
  | 0x10 => "u8" | 0x11 => "u16" | 0x12 => "u32" | 0x13 => "u64" | 0x14 => "i8" | 0x15 => "i16" | 0x16 => "i32" | 0x17 => "i64"
  | 0x20 => "bit_u" | 0x21 => "bit_i" | 0x22 => "bit_bool" | _ => "unknown"
  end.
(** 328-340: each part goes through a buffer of 256 bytes *)
Definition members_text (e : enumdef) : list N :=
  firstn 255 (chars "Type: `" ++ chars (type_word (en_type e)) ++ chars "`" ++ [10; 10] ++ chars "Members:" ++ [10]) ++
  flat_map (fun m => firstn 255 (chars "- `" ++ fst m ++ chars "` = `" ++ decimal_z (snd m) ++ chars "`" ++ [10])) (en_vals e).

(** What was found: a decorator of the language with documentation and detail, or a definition with its line (from 0), its file and
    the members of an enum.  The documentation comment of a definition is not modelled. *)
Inductive target := Decorator (doc detail : list N) | Defined (line : Z) (file : list N) (details : option (list N)).
(** [LUndef]: with more than 1024 errors, freeing their messages reads past the array (352-355) *)
Inductive lookup := Looked (found : option (list N * target)) | LUndef | LUb (u : ubk) | LFuel.

Definition find_site (e : bool) (name : list N) (l : list site) : option site :=
  find (fun s => Bool.eqb (site_enum s) e && same_text (site_name s) name) l.
Definition look_up (p : pst) (t : token) (deco : bool) : option (list N * target) :=
  if is_kind TIdentifier t then
    match (if deco then builtin (ttext t) else None) with
    | Some (doc, detail) => Some (ttext t, Decorator doc detail)
    | None =>
      match find_site false (ttext t) (p_sites p) with
      | Some s => Some (ttext t, Defined (Z.of_N (site_line s) - 1) (site_path s) None)
      | None =>
        match find_site true (ttext t) (p_sites p) with
        | Some s => Some (ttext t, Defined (Z.of_N (site_line s) - 1) (site_path s) (option_map members_text (find_enum (p_enums p) (ttext t))))
        | None => None
        end
      end
    end
  else None.
Definition find_at (E : env) (fuel : nat) (path src : list N) (line character : Z) : lookup :=
  match lex src, analyse E fuel path src with
  | Some toks, POk _ p =>
    if (kept <? List.length (p_errs p))%nat then LUndef
    else Looked (match token_at src line character TEof toks with Some (t, deco) => look_up p t deco | None => None end)
  | _, PUb u => LUb u
  | _, _ => LFuel
  end.

(** ** The symbols of a document, cmd_lsp.c:832-868: name, kind (23 structure, 10 enum), line from 0; structures first.
    [OUndef] as above (873-876) *)
Definition symbols (p : pst) : list (list N * N * Z) :=
  let list_of e k := map (fun s => (site_name s, k, (Z.of_N (site_line s) - 1)%Z)) (filter (fun s => Bool.eqb (site_enum s) e) (p_sites p)) in
  list_of false 23 ++ list_of true 10.
Inductive outline := Listed (l : list (list N * N * Z)) | OUndef | OUb (u : ubk) | OFuel.
Definition document_symbols (E : env) (fuel : nat) (path src : list N) : outline :=
  match analyse E fuel path src with
  | POk _ p => if (kept <? List.length (p_errs p))%nat then OUndef else Listed (symbols p)
  | PUb u => OUb u
  | PFuel => OFuel
  end.
