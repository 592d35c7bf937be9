(** Text level of the compiler: character classes, number literals, string tables and the lexer
    (src/compiler/cnd_utils.c, src/compiler/cnd_lexer.c, src/compiler/cnd_internal.h).
    Characters are their codes; a NUL-terminated text is the list of its characters before the NUL. *)
From Coq Require Import Strings.String Strings.Ascii.
From Verif Require Import Base ModelVM.

(** Codes of a literal text *)
Fixpoint chars (s : String.string) : list N :=
  match s with String.EmptyString => [] | String.String c r => Ascii.N_of_ascii c :: chars r end.
Arguments chars s%string.

(** cnd_internal.h:99-101 *)
Definition is_digit (c : N) : bool := (48 <=? c) && (c <=? 57).
Definition is_alpha (c : N) : bool := ((97 <=? c) && (c <=? 122)) || ((65 <=? c) && (c <=? 90)) || (c =? 95).
Definition is_hex (c : N) : bool := is_digit c || ((97 <=? c) && (c <=? 102)) || ((65 <=? c) && (c <=? 70)).
Definition is_alnum (c : N) : bool := is_alpha c || is_digit c.

(** *(p + k); the terminating NUL reads 0.  The program never reads beyond the NUL: each look-ahead is reached
    only when the characters before it were not NUL. *)
Definition peek (k : nat) (l : list N) : N := nth k l 0.

Fixpoint span (p : N -> bool) (l : list N) : list N * list N :=
  match l with
  | [] => ([], [])
  | c :: r => if p c then let (a, b) := span p r in (c :: a, b) else ([], l)
  end.

(** ** Numbers *)

(** hex_char_to_int, cnd_utils.c:436-441 *)
Definition hex_char_to_int (c : N) : N :=
  if (48 <=? c) && (c <=? 57) then c - 48
  else if (97 <=? c) && (c <=? 102) then c - 97 + 10
  else if (65 <=? c) && (c <=? 70) then c - 65 + 10
  else 0.

(** The two accumulation loops (cnd_utils.c:447-449, 452-456 with [bits] = 32; 480-482, 484-489 with 64) *)
Definition acc_hex (bits : N) (l : list N) (res : N) : N :=
  fold_left (fun res c => N.lor (N.shiftl res 4 mod 2 ^ bits) (hex_char_to_int c)) l res.
Definition acc_dec (bits : N) (l : list N) (res : N) : N :=
  fold_left (fun res c => if is_digit c then (res * 10 + (c - 48)) mod 2 ^ bits else res) l res.
Definition acc_number (bits : N) (s : list N) : N :=
  if (2 <? lenN s) && (peek 0 s =? 48) && ((peek 1 s =? 120) || (peek 1 s =? 88))
  then acc_hex bits (skipn 2 s) 0
  else acc_dec bits s 0.

(** parse_number_u32, cnd_utils.c:443-459 *)
Definition parse_number_u32 (s : list N) : N := acc_number 32 s.

(** parse_number_i64, cnd_utils.c:461-493: negating INT64_MIN overflows *)
Definition parse_number_i64 (s : list N) : result Z :=
  match s with
  | [] => Ok 0%Z
  | c :: r =>
    if c =? 45 then
      let v := toS 8 (acc_number 64 r) in
      if (v =? - 2 ^ 63)%Z then Ub UOverflow else Ok (- v)%Z
    else if c =? 43 then Ok (toS 8 (acc_number 64 r))
    else Ok (toS 8 (acc_number 64 s))
  end.

(** ** String table: strtab_add, cnd_utils.c:310-326.  [t]: the stored NUL-terminated copies, in order. *)
Fixpoint strtab_find (t : list (list N)) (s : list N) (i : N) : option N :=
  match t with
  | [] => None
  | x :: r => if list_eq_dec N.eq_dec (cstr x) s then Some i else strtab_find r s (i + 1)
  end.
Definition strtab_add (t : list (list N)) (s : list N) : list (list N) * N :=
  match strtab_find t s 0 with
  | Some i => (t, i mod 2 ^ 16)
  | None => (t ++ [s], lenN t mod 2 ^ 16)
  end.

(** ** Tokens (cnd_internal.h:31-83) *)
Inductive kind :=
| TEof | TIdentifier | TNumber | TString
| TStruct | TPacket | TEnum | TSwitch | TCase | TDefault | TIf | TElse | TTrue | TFalse | TSelf
| TLbrace | TRbrace | TLbracket | TRbracket | TLparen | TRparen | TSemicolon | TColon | TComma | TAt
| TEquals | TDot | TBang | TAmp | TPipe | TCaret | TTilde | TEqEq | TBangEq | TGt | TLt | TGtEq | TLtEq
| TAmpAmp | TPipePipe | TLshift | TRshift | TPlus | TMinus | TStar | TSlash | TPercent | TDoc | TError.

(** A token: kind, position of [start] in the source, its text, its line *)
Record token := { tk : kind; tpos : N; ttext : list N; tline : N }.

(** check_keyword, cnd_lexer.c:10-37 *)
Definition keywords : list (list N * kind) :=
  [([105; 102], TIf); ([101; 110; 117; 109], TEnum); ([99; 97; 115; 101], TCase); ([101; 108; 115; 101], TElse);
   ([116; 114; 117; 101], TTrue); ([115; 101; 108; 102], TSelf); ([102; 97; 108; 115; 101], TFalse);
   ([115; 116; 114; 117; 99; 116], TStruct); ([112; 97; 99; 107; 101; 116], TPacket); ([115; 119; 105; 116; 99; 104], TSwitch);
   ([100; 101; 102; 97; 117; 108; 116], TDefault)].
Definition check_keyword (s : list N) : kind :=
  match find (fun p => if list_eq_dec N.eq_dec (fst p) s then true else false) keywords with
  | Some (_, k) => k
  | None => TIdentifier
  end.

(** The switch of cnd_lexer.c:83-137 without the string case: kind and length of the token starting with [c] when
    [n] is the following character; [None]: fall out of the switch *)
Definition punct (c n : N) : option (kind * nat) :=
  match c with
  | 123 => Some (TLbrace, 1%nat) | 125 => Some (TRbrace, 1%nat) | 91 => Some (TLbracket, 1%nat) | 93 => Some (TRbracket, 1%nat)
  | 40 => Some (TLparen, 1%nat) | 41 => Some (TRparen, 1%nat) | 59 => Some (TSemicolon, 1%nat) | 58 => Some (TColon, 1%nat)
  | 44 => Some (TComma, 1%nat) | 64 => Some (TAt, 1%nat)
  | 61 => Some (if n =? 61 then (TEqEq, 2%nat) else (TEquals, 1%nat))
  | 33 => Some (if n =? 61 then (TBangEq, 2%nat) else (TBang, 1%nat))
  | 38 => Some (if n =? 38 then (TAmpAmp, 2%nat) else (TAmp, 1%nat))
  | 124 => Some (if n =? 124 then (TPipePipe, 2%nat) else (TPipe, 1%nat))
  | 94 => Some (TCaret, 1%nat) | 126 => Some (TTilde, 1%nat)
  | 62 => Some (if n =? 61 then (TGtEq, 2%nat) else if n =? 62 then (TRshift, 2%nat) else (TGt, 1%nat))
  | 60 => Some (if n =? 61 then (TLtEq, 2%nat) else if n =? 60 then (TLshift, 2%nat) else (TLt, 1%nat))
  | 46 => Some (TDot, 1%nat) | 43 => Some (TPlus, 1%nat)
  | 45 => if is_digit n then None else Some (TMinus, 1%nat)
  | 42 => Some (TStar, 1%nat) | 47 => Some (TSlash, 1%nat) | 37 => Some (TPercent, 1%nat)
  | _ => None
  end.

(** Length of the number starting at [c :: r] (cnd_lexer.c:151-177) *)
Definition number_len (c : N) (r : list N) : nat :=
  let is_x n := (n =? 120) || (n =? 88) in
  if (c =? 48) && is_x (peek 0 r) then 2 + length (fst (span is_hex (skipn 1 r)))
  else if (c =? 45) && (peek 0 r =? 48) && is_x (peek 1 r) then 3 + length (fst (span is_hex (skipn 2 r)))
  else
    let (a, b) := span is_digit r in
    if (peek 0 b =? 46) && is_digit (peek 1 b)
    then 2 + length a + length (fst (span is_digit (skipn 1 b)))
    else 1 + length a.

(** The token starting at [c :: r] (cnd_lexer.c:77-182): token and number of characters consumed from the source *)
Definition scan (c : N) (r : list N) (pos line : N) : token * nat :=
  let mk k (n : nat) := ({| tk := k; tpos := pos; ttext := firstn n (c :: r); tline := line |}, n) in
  if c =? 34 then
    let (a, b) := span (fun x => negb (x =? 34)) r in
    ({| tk := TString; tpos := pos + 1; ttext := a; tline := line |},
     (match b with [] => 1 + length a | _ => 2 + length a end)%nat)
  else
    match punct c (peek 0 r) with
    | Some (k, n) => mk k n
    | None =>
      if is_alpha c then
        let n := S (length (fst (span is_alnum r))) in
        mk (check_keyword (firstn n (c :: r))) n
      else if is_digit c || ((c =? 45) && is_digit (peek 0 r)) then mk TNumber (number_len c r)
      else mk TError 1%nat
    end.

(** Inside a block comment (cnd_lexer.c:67-74): rest, position and line after it *)
Fixpoint skip_block (l : list N) (pos line : N) : list N * N * N :=
  match l with
  | [] => ([], pos, line)
  | c :: r =>
    let line := if c =? 10 then line + 1 else line in
    if (c =? 42) && (peek 0 r =? 47) then (tl r, pos + 2, line)
    else skip_block r (pos + 1) line
  end.

(** lexer_next, cnd_lexer.c:39-187: token, rest of the text, its position and line; [None]: out of fuel *)
Fixpoint lexer_next (fuel : nat) (l : list N) (pos line : N) : option (token * list N * N * N) :=
  match fuel with
  | O => None
  | S fuel =>
    match l with
    | [] => Some ({| tk := TEof; tpos := pos; ttext := []; tline := line |}, [], pos, line)
    | c :: r =>
      if (c =? 32) || (c =? 13) || (c =? 9) then lexer_next fuel r (pos + 1) line
      else if c =? 10 then lexer_next fuel r (pos + 1) (line + 1)
      else if (c =? 47) && (peek 0 r =? 47) && (peek 1 r =? 47) then
        let (a, b) := span (fun x => negb (x =? 10) && negb (x =? 13)) (skipn 2 r) in
        Some ({| tk := TDoc; tpos := pos + 3; ttext := a; tline := line |}, b, pos + 3 + lenN a, line)
      else if (c =? 47) && (peek 0 r =? 47) then
        let (a, b) := span (fun x => negb (x =? 10)) l in
        lexer_next fuel b (pos + lenN a) line
      else if (c =? 47) && (peek 0 r =? 42) then
        let '(b, pos, line) := skip_block (tl r) (pos + 2) line in
        lexer_next fuel b pos line
      else
        let (t, n) := scan c r pos line in
        Some (t, skipn n l, pos + N.of_nat n, line)
    end
  end.

(** Repeated lexer_next up to the end of file (the loop of [advance], cnd_parser.c:257-264, without the parser) *)
Fixpoint lex_from (fuel : nat) (l : list N) (pos line : N) : option (list token) :=
  match fuel with
  | O => None
  | S fuel =>
    match lexer_next (S (length l)) l pos line with
    | None => None
    | Some (t, l, pos, line) =>
      match tk t with
      | TEof => Some [t]
      | _ => option_map (cons t) (lex_from fuel l pos line)
      end
    end
  end.
Definition lex (src : list N) : option (list token) := lex_from (S (length src)) src 0 1.
