(** The schema compiler's parser and code generator: src/compiler/cnd_parser.c, with the buffers,
    registries and tables of cnd_utils.c.
    Not modelled: messages (an error is the flag had_error), doc comments' texts, positions, verbose
    output, memory exhaustion, depth of the C stack. *)
From Coq Require Import Strings.String.
From Verif Require Import Base ModelFloat ModelVM ModelImage ModelText ModelNames.

(** What the compiler asks its environment: strtod (the bits of the double), reading a file, and making a
    path canonical (cnd_canonicalize_path, cnd_utils.c:4-28). *)
Record env := { e_strtod : list N -> N; e_read : list N -> option (list N); e_canon : list N -> list N }.

(** EnumDef without documentation (cnd_internal.h:181-195): name, underlying type, values *)
Record enumdef := { en_name : list N; en_type : N; en_vals : list (list N * Z) }.

(** Parser, cnd_internal.h:216-262.  [p_out] is the buffer [target] points to; [p_toks] are the tokens the lexer
    has still to deliver.  field_prefix, pending_be and pending_le are never used by the code. *)
(** Where a structure or enum was defined: StructDef and EnumDef, cnd_internal.h:164-170, 190-199 (the documentation comment is left out) *)
Record site := { site_enum : bool; site_name : list N; site_line : N; site_path : list N }.
Record pst := mkp {
  p_toks : list token; p_cur : token; p_prev : token;
  p_out : list N; p_strs : list (list N);
  p_structs : list (list N * list N); p_enums : list enumdef;
  p_imports : list (list N); p_path : list N;
  p_sname : option (list N); p_fields : list (list N);
  p_err : bool; p_packets : N; p_depth : N;
  p_unaligned : bool; p_bitmode : bool; p_bits : Z; p_bits_valid : bool;
  p_errs : list (N * list N * token); p_sites : list site }.

(** Outcome of a parsing function: value and state; undefined behaviour; out of fuel *)
Inductive pres (A : Type) := POk (a : A) (p : pst) | PUb (u : ubk) | PFuel.
Arguments POk {A} a p. Arguments PUb {A} u. Arguments PFuel {A}.
Definition par (A : Type) := pst -> pres A.
Definition ret {A} (a : A) : par A := fun p => POk a p.
Definition pbind {A B} (m : par A) (k : A -> par B) : par B := fun p =>
  match m p with POk a p => k a p | PUb u => PUb u | PFuel => PFuel end.
Notation "'let%' x ':=' m 'in' k" := (pbind m (fun x => k)) (at level 200, x pattern, m at level 100, k at level 200).
Notation "m ;; k" := (pbind m (fun _ => k)) (at level 100, k at level 200, right associativity).
Definition get {A} (f : pst -> A) : par A := fun p => POk (f p) p.
Definition upd_p (f : pst -> pst) : par unit := fun p => POk tt (f p).
Definition undef {A} (u : ubk) : par A := fun _ => PUb u.
Definition of_result {A} (r : result A) : par A := match r with Ok a => ret a | Ub u => undef u end.
Definition no_fuel {A} : par A := fun _ => PFuel.
Definition when (b : bool) (m : par unit) : par unit := if b then m else ret tt.

(** Setters *)
Definition set_tok toks cur prev p := mkp toks cur prev (p_out p) (p_strs p) (p_structs p) (p_enums p) (p_imports p) (p_path p)
  (p_sname p) (p_fields p) (p_err p) (p_packets p) (p_depth p) (p_unaligned p) (p_bitmode p) (p_bits p) (p_bits_valid p) (p_errs p) (p_sites p).
Definition set_out out p := mkp (p_toks p) (p_cur p) (p_prev p) out (p_strs p) (p_structs p) (p_enums p) (p_imports p) (p_path p)
  (p_sname p) (p_fields p) (p_err p) (p_packets p) (p_depth p) (p_unaligned p) (p_bitmode p) (p_bits p) (p_bits_valid p) (p_errs p) (p_sites p).
Definition set_strs strs p := mkp (p_toks p) (p_cur p) (p_prev p) (p_out p) strs (p_structs p) (p_enums p) (p_imports p) (p_path p)
  (p_sname p) (p_fields p) (p_err p) (p_packets p) (p_depth p) (p_unaligned p) (p_bitmode p) (p_bits p) (p_bits_valid p) (p_errs p) (p_sites p).
Definition set_defs structs enums p := mkp (p_toks p) (p_cur p) (p_prev p) (p_out p) (p_strs p) structs enums (p_imports p) (p_path p)
  (p_sname p) (p_fields p) (p_err p) (p_packets p) (p_depth p) (p_unaligned p) (p_bitmode p) (p_bits p) (p_bits_valid p) (p_errs p) (p_sites p).
Definition set_import imports path depth p := mkp (p_toks p) (p_cur p) (p_prev p) (p_out p) (p_strs p) (p_structs p) (p_enums p) imports path
  (p_sname p) (p_fields p) (p_err p) (p_packets p) depth (p_unaligned p) (p_bitmode p) (p_bits p) (p_bits_valid p) (p_errs p) (p_sites p).
Definition set_struct sname fields p := mkp (p_toks p) (p_cur p) (p_prev p) (p_out p) (p_strs p) (p_structs p) (p_enums p) (p_imports p) (p_path p)
  sname fields (p_err p) (p_packets p) (p_depth p) (p_unaligned p) (p_bitmode p) (p_bits p) (p_bits_valid p) (p_errs p) (p_sites p).
Definition set_errs l p := mkp (p_toks p) (p_cur p) (p_prev p) (p_out p) (p_strs p) (p_structs p) (p_enums p) (p_imports p) (p_path p)
  (p_sname p) (p_fields p) true (p_packets p) (p_depth p) (p_unaligned p) (p_bitmode p) (p_bits p) (p_bits_valid p) (l ++ p_errs p) (p_sites p).
Definition add_site (e : bool) (t : token) p := mkp (p_toks p) (p_cur p) (p_prev p) (p_out p) (p_strs p) (p_structs p) (p_enums p) (p_imports p) (p_path p)
  (p_sname p) (p_fields p) (p_err p) (p_packets p) (p_depth p) (p_unaligned p) (p_bitmode p) (p_bits p) (p_bits_valid p) (p_errs p)
  (p_sites p ++ [{| site_enum := e; site_name := ttext t; site_line := tline t; site_path := p_path p |}]).
Definition set_packets n p := mkp (p_toks p) (p_cur p) (p_prev p) (p_out p) (p_strs p) (p_structs p) (p_enums p) (p_imports p) (p_path p)
  (p_sname p) (p_fields p) (p_err p) n (p_depth p) (p_unaligned p) (p_bitmode p) (p_bits p) (p_bits_valid p) (p_errs p) (p_sites p).
Definition set_bits unaligned bitmode bits valid p := mkp (p_toks p) (p_cur p) (p_prev p) (p_out p) (p_strs p) (p_structs p) (p_enums p) (p_imports p) (p_path p)
  (p_sname p) (p_fields p) (p_err p) (p_packets p) (p_depth p) unaligned bitmode bits valid (p_errs p) (p_sites p).

(** parser_error, cnd_parser.c:189-215: the error is recorded with the token the parser is at, the newest first; the line and the column
    are the token's, in the text of [p_path] (the file itself when [p_depth] is 0).  Not modelled: the message, and that only the first
    1024 errors are kept (see ModelDiag). *)
Definition err_at (p : pst) (t : token) : N * list N * token := (p_depth p, p_path p, t).
Definition set_err (p : pst) : pst := set_errs [err_at p (p_cur p)] p.
Definition error : par unit := upd_p set_err.

(** advance, cnd_parser.c:257-264.  The last token is the end of file, which the lexer delivers again and again. *)
Fixpoint next_token (toks : list token) (bad : bool) : list token * option token * bool :=
  match toks with
  | [] => ([], None, bad)
  | t :: r =>
    match tk t with
    | TError => next_token r true
    | TEof => (toks, Some t, bad)
    | _ => (r, Some t, bad)
    end
  end.
Fixpoint bad_tokens (toks : list token) : list token :=
  match toks with
  | [] => []
  | t :: r => match tk t with TError => t :: bad_tokens r | _ => [] end
  end.
Definition advance : par unit := fun p =>
  let '(toks, t, bad) := next_token (p_toks p) false in
  let p' := set_tok toks (match t with Some t => t | None => p_cur p end) (p_cur p) p in
  POk tt (if bad then set_errs (rev (map (err_at p) (bad_tokens (p_toks p)))) p' else p').

Scheme Equality for kind.
Definition is_kind (k : kind) (t : token) : bool := if kind_eq_dec (tk t) k then true else false.
Definition at_kind (k : kind) : par bool := get (fun p => is_kind k (p_cur p)).

(** consume, cnd_parser.c:266-272 *)
Definition consume (k : kind) : par unit :=
  let% b := at_kind k in if b then advance else error.

(** match_keyword, cnd_parser.c:274-279 *)
Definition same_text (a b : list N) : bool := if list_eq_dec N.eq_dec a b then true else false.
Definition match_keyword (t : token) (kw : String.string) : bool := is_kind TIdentifier t && same_text (ttext t) (chars kw).
Definition match_any (t : token) (kws : list String.string) : bool := existsb (match_keyword t) kws.

(** Buffers, cnd_utils.c:245-300: pushes append, least significant byte first; writes outside the buffer are ignored. *)
Definition le8 (v : N) : list N := le4 v ++ le4 (v / 2 ^ 32).
Definition emit (l : list N) : par unit := upd_p (fun p => set_out (p_out p ++ l) p).
Definition here : par N := get (fun p => lenN (p_out p)).
Definition write_at (off : N) (l : list N) : par unit := upd_p (fun p =>
  if lenN (p_out p) <? off + lenN l then p
  else set_out (firstn (N.to_nat off) (p_out p) ++ l ++ skipn (N.to_nat (off + lenN l)) (p_out p)) p).

(** strtab_add on the program's names *)
Definition add_name (s : list N) : par N := fun p =>
  let (strs, id) := strtab_add (p_strs p) s in POk id (set_strs strs p).

(** parse_number_double, cnd_utils.c:491-497 *)
Definition parse_number_double (E : env) (s : list N) : N := if 63 <=? lenN s then 0 else e_strtod E s.
Definition number_i64 (s : list N) : par Z := of_result (parse_number_i64 s).

(** * Expressions, cnd_parser.c:3-185, 352-469 *)

(** ExprType *)
Inductive ety := TyInt | TyFloat | TyUnknown.
Definition is_int (t : ety) : bool := match t with TyInt => true | _ => false end.
Definition is_float (t : ety) : bool := match t with TyFloat => true | _ => false end.

(** is_float_literal, cnd_parser.c:43-48 *)
Definition is_float_literal (s : list N) : bool := existsb (fun c => (c =? 46) || (c =? 101) || (c =? 69)) s.

(** The rules table, cnd_parser.c:136-163: prefix parser and precedence (0 = PREC_NONE ... 10 = PREC_FACTOR); the
    infix parser is parse_binary wherever the precedence is not 0.  The table ends with TOK_PERCENT: looking up a doc
    comment reads past it. *)
Inductive prefix_rule := RGroup | RUnary | RPrimary.
Definition rule (k : kind) : result (option prefix_rule * N) :=
  match k with
  | TLparen => Ok (Some RGroup, 0)
  | TMinus => Ok (Some RUnary, 9)
  | TPlus => Ok (None, 9)
  | TSlash | TStar | TPercent => Ok (None, 10)
  | TBang | TTilde => Ok (Some RUnary, 0)
  | TPipePipe => Ok (None, 1)
  | TAmpAmp => Ok (None, 2)
  | TPipe => Ok (None, 3)
  | TCaret => Ok (None, 4)
  | TAmp => Ok (None, 5)
  | TEqEq | TBangEq => Ok (None, 6)
  | TLt | TLtEq | TGt | TGtEq => Ok (None, 7)
  | TLshift | TRshift => Ok (None, 8)
  | TNumber | TTrue | TFalse | TSelf | TIdentifier => Ok (Some RPrimary, 0)
  | TDoc | TError => Ub UData
  | _ => Ok (None, 0)
  end.

(** The switch of parse_unary (cnd_parser.c:54-61) *)
Definition unary_code (op : kind) (t : ety) : list N * ety :=
  match op with
  | TBang => ([0x71], TyInt)
  | TTilde => ([0xA3], TyInt)
  | TMinus => if is_float t then ([0x84], TyFloat) else ([0x77], TyInt)
  | _ => ([], TyUnknown)
  end.

(** parse_binary after its right operand (cnd_parser.c:69-127): conversions, operator, type *)
Definition binary_code (op : kind) (left right : ety) : list N * ety :=
  let fl := is_float left || is_float right in
  let conv := if fl then if is_int left then [0x63; 0x90; 0x63] else if is_int right then [0x90] else [] else [] in
  let arith (f i : N) := if fl then (conv ++ [f], TyFloat) else (conv ++ [i], TyInt) in
  let comp (f i : N) := (conv ++ [if fl then f else i], TyInt) in
  match op with
  | TPipePipe => (conv ++ [0x70], TyInt)
  | TAmpAmp => (conv ++ [0x6F], TyInt)
  | TPipe => (conv ++ [0xA1], TyInt)
  | TCaret => (conv ++ [0xA2], TyInt)
  | TAmp => (conv ++ [0xA0], TyInt)
  | TEqEq => comp 0x92 0x69
  | TBangEq => comp 0x93 0x6A
  | TLt => comp 0x95 0x6C
  | TLtEq => comp 0x97 0x6E
  | TGt => comp 0x94 0x6B
  | TGtEq => comp 0x96 0x6D
  | TLshift => (conv ++ [0xA4], TyInt)
  | TRshift => (conv ++ [0xA5], TyInt)
  | TPlus => arith 0x80 0x72
  | TMinus => arith 0x81 0x73
  | TStar => arith 0x82 0x74
  | TSlash => arith 0x83 0x75
  | TPercent => (conv ++ [0x76], TyInt)
  | _ => (conv, TyUnknown)
  end.

(** The functions of one argument (cnd_parser.c:381-440): what follows the argument's code *)
Definition function1 (t : token) : option (ety -> list N * ety) :=
  let conv (x : ety) := if is_int x then [0x90] else [] in
  if match_keyword t "sin" then Some (fun x => (conv x ++ [0x85], TyFloat))
  else if match_keyword t "cos" then Some (fun x => (conv x ++ [0x86], TyFloat))
  else if match_keyword t "tan" then Some (fun x => (conv x ++ [0x87], TyFloat))
  else if match_keyword t "sqrt" then Some (fun x => (conv x ++ [0x88], TyFloat))
  else if match_keyword t "log" then Some (fun x => (conv x ++ [0x8A], TyFloat))
  else if match_keyword t "abs" then Some (fun x => (conv x ++ [0x8B], TyFloat))
  else if match_keyword t "float" then Some (fun _ => ([0x90], TyFloat))
  else if match_keyword t "int" then Some (fun _ => ([0x91], TyInt))
  else None.

(** The loop over ".name" (cnd_parser.c:449-458); None: the path is too long *)
Fixpoint path_loop (fuel : nat) (name : list N) : par (option (list N)) :=
  match fuel with
  | O => no_fuel
  | S f =>
    let% b := at_kind TDot in
    if b then
      advance ;;
      let% sub := get p_cur in
      consume TIdentifier ;;
      (if 256 <=? lenN name + 1 + lenN (ttext sub) then error ;; ret None
       else path_loop f (name ++ [46] ++ ttext sub))
    else ret (Some name)
  end.

(** A name in an expression (cnd_parser.c:441-467) *)
Definition load_name (fuel : nat) (name : list N) : par ety :=
  let load n := let% id := add_name n in emit ([0x60] ++ le2 id) ;; ret TyUnknown in
  let% dot := at_kind TDot in
  if dot then
    if 256 <=? lenN name then error ;; ret TyUnknown
    else
      let% full := path_loop fuel name in
      match full with Some n => load n | None => ret TyUnknown end
  else load name.

(** parse_precedence with everything it calls (cnd_parser.c:50-134, 169-185, 352-469).  pow's first argument's
    conversion is emitted before the second argument. *)
Fixpoint parse_precedence (E : env) (fuel : nat) (prec : N) : par ety :=
  match fuel with
  | O => no_fuel
  | S f =>
    advance ;;
    let% t := get p_prev in
    let% r := of_result (rule (tk t)) in
    match fst r with
    | None => error ;; ret TyUnknown
    | Some RUnary =>
      let% op := get (fun p => tk (p_cur p)) in
      advance ;;
      let% ty := parse_precedence E f 11 in
      let (c, ty) := unary_code op ty in
      emit c ;; infix_loop E f prec ty
    | Some RGroup =>
      advance ;;
      let% ty := parse_precedence E f 1 in
      consume TRparen ;; infix_loop E f prec ty
    | Some RPrimary =>
      let% ty :=
        match tk t with
        | TNumber =>
          if is_float_literal (ttext t)
          then emit ([0x61] ++ le8 (parse_number_double E (ttext t))) ;; ret TyFloat
          else let% v := number_i64 (ttext t) in emit ([0x61] ++ le8 (ofZ 8 v)) ;; ret TyInt
        | TTrue => emit ([0x61] ++ le8 1) ;; ret TyInt
        | TFalse => emit ([0x61] ++ le8 0) ;; ret TyInt
        | TSelf => emit [0x64] ;; ret TyUnknown
        | _ =>
          match function1 t with
          | Some fn =>
            consume TLparen ;;
            let% x := parse_precedence E f 1 in
            consume TRparen ;;
            let (c, ty) := fn x in
            emit c ;; ret ty
          | None =>
            if match_keyword t "pow" then
              consume TLparen ;;
              let% x := parse_precedence E f 1 in
              when (is_int x) (emit [0x90]) ;;
              consume TComma ;;
              let% y := parse_precedence E f 1 in
              when (is_int y) (emit [0x90]) ;;
              consume TRparen ;;
              emit [0x89] ;; ret TyFloat
            else load_name f (ttext t)
          end
        end in
      infix_loop E f prec ty
    end
  end
with infix_loop (E : env) (fuel : nat) (prec : N) (lty : ety) : par ety :=
  match fuel with
  | O => no_fuel
  | S f =>
    let% k := get (fun p => tk (p_cur p)) in
    let% r := of_result (rule k) in
    if prec <=? snd r then
      advance ;;
      let% rty := parse_precedence E f (snd r + 1) in
      let (c, ty) := binary_code k lty rty in
      emit c ;; infix_loop E f prec ty
    else ret lty
  end.
Definition parse_expression (E : env) (fuel : nat) : par ety := parse_precedence E fuel 1.
