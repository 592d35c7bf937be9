(** * The generator of the language bindings: src/tools/gen_bindings.c

    It reads the C header line by line and prints the constants for Go, Python or TypeScript.  Simplifications: the file is the list of its
    bytes; int has 32 and long 64 bits; what is printed to stderr is left out. *)
From Coq Require Import Strings.String.
From Verif Require Import Base ModelText ModelLsp.
Local Open Scope string_scope.
Local Open Scope list_scope.
Local Open Scope N_scope.

(** [Overrun]: a write past one of the arrays of 256.  [Ctype]: isspace, isalnum, toupper or tolower of a negative char (a byte of 128 or
    more).  [Wrapped]: last_val++ at INT_MAX. *)
Inductive gen (A : Type) := Done (a : A) | Overrun | Ctype | Wrapped.
Arguments Done {A} a. Arguments Overrun {A}. Arguments Ctype {A}. Arguments Wrapped {A}.
Definition gbind {A B} (m : gen A) (k : A -> gen B) : gen B :=
  match m with Done a => k a | Overrun => Overrun | Ctype => Ctype | Wrapped => Wrapped end.
Notation "'let&' x ':=' e 'in' k" := (gbind e (fun x => k)) (at level 200, x pattern, e at level 200, k at level 200, right associativity).

(** <ctype.h> in the C locale *)
Definition white (c : N) : bool := (c =? 32) || ((9 <=? c) && (c <=? 13)).
Definition letter_or_digit (c : N) : bool := ((48 <=? c) && (c <=? 57)) || ((65 <=? c) && (c <=? 90)) || ((97 <=? c) && (c <=? 122)).
Definition upper (c : N) : N := if (97 <=? c) && (c <=? 122) then c - 32 else c.
Definition lower (c : N) : N := if (65 <=? c) && (c <=? 90) then c + 32 else c.
Definition ascii (c : N) : bool := c <? 128.

(** Text [l] without [p] in front of it: literals of sscanf, strncmp with the length of the literal *)
Fixpoint behind (p l : list N) : option (list N) :=
  match p, l with
  | [], _ => Some l
  | a :: p, b :: l => if a =? b then behind p l else None
  | _ :: _, [] => None
  end.
Definition begins (p l : list N) : bool := match behind p l with Some _ => true | None => false end.

(** ** to_pascal_case, gen_bindings.c:20-82 *)

(** KEEP_UPPER, 10-16 *)
Definition keep_upper : list string := ["OOB"; "CRC"; "ID"; "VM"].
Definition keeps (w : list N) : bool := existsb (fun k => if list_eq_dec N.eq_dec w (chars k) then true else false) keep_upper.
(** The pieces between underscores (the buffer of 31-32, which takes every piece of a name that fits in its own array) *)
Fixpoint split_at (acc l : list N) : list (list N) :=
  match l with
  | [] => [acc]
  | c :: r => if c =? 95 then acc :: split_at [] r else split_at (acc ++ [c]) r
  end.
(** 38-54 and 65-80 *)
Definition piece_name (w : list N) : gen (list N) :=
  match w with
  | [] => Done []
  | c :: r => if keeps w then Done w else if forallb ascii w then Done (upper c :: map lower r) else Ctype
  end.
Fixpoint pieces_name (ws : list (list N)) : gen (list N) :=
  match ws with [] => Done [] | w :: r => let& a := piece_name w in let& b := pieces_name r in Done (a ++ b) end.
(** [input] without the prefix, if it has it.  The output is an array of 256. *)
Definition pascal (input strip add : list N) : gen (list N) :=
  let rest := match behind strip input with Some r => r | None => input end in
  let& n := pieces_name (split_at [] rest) in
  if 256 <=? lenN (add ++ n) then Overrun else Done (add ++ n).

(** ** process_line, 103-190 *)

Fixpoint drop_white (l : list N) : list N := match l with c :: r => if white c then drop_white r else l | [] => [] end.
(** %s, after the white space *)
Fixpoint word (l : list N) : list N := match l with c :: r => if white c then [] else c :: word r | [] => [] end.
Fixpoint past_word (l : list N) : list N := match l with c :: r => if white c then l else past_word r | [] => [] end.
(** sscanf(line, "#define OP_%s %s", name, value) == 2, line 115: a space in the format stands for any white space, also none *)
Definition scan_define (l : list N) : gen (option (list N * list N)) :=
  match behind (chars "#define") l with
  | None => Done None
  | Some r =>
    match behind (chars "OP_") (drop_white r) with
    | None => Done None
    | Some r =>
      let r := drop_white r in
      let name := word r in
      let value := word (drop_white (past_word r)) in
      if (256 <=? lenN name) || (256 <=? lenN value) then Overrun
      else match name, value with _ :: _, _ :: _ => Done (Some (name, value)) | _, _ => Done None end
    end
  end.

(** A line that fgets has read, as a string: up to a NUL *)
Fixpoint upto_nul (l : list N) : list N := match l with c :: r => if c =? 0 then [] else c :: upto_nul r | [] => [] end.
(** 109-112 *)
Fixpoint no_comment (l : list N) : list N :=
  match l with
  | a :: ((b :: _) as r) => if (a =? 47) && (b =? 47) then [] else a :: no_comment r
  | _ => l
  end.

(** The loops of 127, 134, 151 and 153 stop at the first byte that fails the test; a byte of 128 or more in front of it is tested too *)
Fixpoint pass (test : N -> bool) (l : list N) : gen (list N * list N) :=
  match l with
  | [] => Done ([], [])
  | c :: r =>
    if ascii c then if test c then let& (a, b) := pass test r in Done (c :: a, b) else Done ([], l)
    else Ctype
  end.
Definition name_char (c : N) : bool := letter_or_digit c || (c =? 95).
Definition value_char (c : N) : bool := letter_or_digit c || (c =? 120) || (c =? 45).
(** strchr(ptr, '=') + 1 *)
Fixpoint past_equals (l : list N) : option (list N) := match l with c :: r => if c =? 61 then Some r else past_equals r | [] => None end.

(** strtol(l, NULL, 0), of a text without white space and plus *)
Definition digit_of (c : N) : N := if (48 <=? c) && (c <=? 57) then c - 48 else if (97 <=? lower c) && (lower c <=? 122) then lower c - 87 else 99.
Fixpoint digits_in (base : N) (l : list N) (acc : Z) : Z :=
  match l with c :: r => if digit_of c <? base then digits_in base r (acc * Z.of_N base + Z.of_N (digit_of c)) else acc | [] => acc end.
Definition unsigned_in (l : list N) : Z :=
  match l with
  | 48 :: x :: d :: r => if (lower x =? 120) && (digit_of d <? 16) then digits_in 16 (d :: r) 0 else digits_in 8 l 0
  | 48 :: _ => digits_in 8 l 0
  | _ => digits_in 10 l 0
  end.
Definition strtol (l : list N) : Z :=
  let z := match l with 45 :: r => (- unsigned_in r)%Z | _ => unsigned_in l end in
  Z.max (- 2 ^ 63) (Z.min (2 ^ 63 - 1) z).
(** (int) of a long *)
Definition to_int (z : Z) : Z := ((z + 2 ^ 31) mod 2 ^ 32 - 2 ^ 31)%Z.

(** The arrays of 89-101, as the entries that are in use, and last_val of 142 *)
Definition const := (list N * list N)%type.
Record tables := mkt { t_ops : list const; t_errs : list const; t_modes : list const; t_trans : list const; t_others : list const; t_last : Z }.
Definition tables0 : tables := mkt [] [] [] [] [] (-1).
Definition add_const (l : list const) (name value : list N) : gen (list const) :=
  if 256 <=? lenN l then Overrun else Done (l ++ [(name, value)]).

(** 140-165: the value, and the new last_val *)
Definition entry_value (last : Z) (l : list N) : gen (list N * Z) :=
  match past_equals l with
  | Some r =>
    let& (_, r) := pass white r in
    let& (v, _) := pass value_char r in
    if 256 <=? lenN v then Overrun else Done (v, to_int (strtol v))
  | None => if (last =? 2 ^ 31 - 1)%Z then Wrapped else Done (decimal_z (last + 1), (last + 1)%Z)
  end.
(** 167-188 *)
Definition file_entry (t : tables) (name value : list N) : gen tables :=
  if begins (chars "CND_ERR_") name then
    let& n := pascal name (chars "CND_ERR_") (chars "Err") in
    let& l := add_const (t_errs t) n value in Done (mkt (t_ops t) l (t_modes t) (t_trans t) (t_others t) (t_last t))
  else if begins (chars "CND_MODE_") name then
    let& n := pascal name (chars "CND_MODE_") (chars "Mode") in
    let& l := add_const (t_modes t) n value in Done (mkt (t_ops t) (t_errs t) l (t_trans t) (t_others t) (t_last t))
  else if begins (chars "CND_TRANS_") name then
    let& n := pascal name (chars "CND_TRANS_") (chars "Trans") in
    let& l := add_const (t_trans t) n value in Done (mkt (t_ops t) (t_errs t) (t_modes t) l (t_others t) (t_last t))
  else if begins (chars "CND_LE") name || begins (chars "CND_BE") name then
    let& n := pascal name (chars "CND_") [] in
    let& l := add_const (t_others t) n value in Done (mkt (t_ops t) (t_errs t) (t_modes t) (t_trans t) l (t_last t))
  else Done t.
Definition process_line (t : tables) (line : list N) : gen tables :=
  let line := no_comment (upto_nul line) in
  let& d := scan_define line in
  match d with
  | Some (name, value) =>
    let& n := pascal (chars "OP_" ++ name) (chars "OP_") (chars "Op") in
    let& l := add_const (t_ops t) n value in Done (mkt l (t_errs t) (t_modes t) (t_trans t) (t_others t) (t_last t))
  | None =>
    let& (_, ptr) := pass white line in
    if begins (chars "CND_") ptr then
      let& (name, _) := pass name_char ptr in
      if 256 <=? lenN name then Overrun
      else
        let& (value, last) := entry_value (t_last t) ptr in
        file_entry (mkt (t_ops t) (t_errs t) (t_modes t) (t_trans t) (t_others t) last) name value
    else Done t
  end.

(** ** main, 323-355 *)

(** fgets into an array of 1024: up to a newline, at most 1023 bytes.  [room]: how many still fit. *)
Fixpoint lines (room : N) (cur l : list N) : list (list N) :=
  match l with
  | [] => match cur with [] => [] | _ => [cur] end
  | c :: r => if (c =? 10) || (room <=? 1) then (cur ++ [c]) :: lines 1023 [] r else lines (room - 1) (cur ++ [c]) r
  end.
Fixpoint process_lines (t : tables) (ls : list (list N)) : gen tables :=
  match ls with [] => Done t | l :: r => let& t := process_line t l in process_lines t r end.
Definition gather (text : list N) : gen tables := process_lines tables0 (lines 1023 [] text).

(** A block of constants: nothing if there are none *)
Definition block (first : list N) (item : const -> list N) (last : list N) (l : list const) : list N :=
  match l with [] => [] | _ => first ++ flat_map item l ++ last end.
Definition nl : list N := [10].
(** generate_go, 192-242 *)
Definition go_item (type : list N) (c : const) : list N := [9] ++ fst c ++ type ++ chars " = " ++ snd c ++ nl.
Definition generate_go (t : tables) : list N :=
  chars "// Code generated by gen_bindings.c; DO NOT EDIT." ++ nl ++ chars "package concordia" ++ nl ++ nl ++
  chars "type Error int" ++ nl ++ chars "type Mode int" ++ nl ++ chars "type Trans int" ++ nl ++ chars "type OpCode uint8" ++ nl ++ nl ++
  block (chars "const (" ++ nl) (go_item (chars " Error")) (chars ")" ++ nl ++ nl) (t_errs t) ++
  block (chars "const (" ++ nl) (go_item (chars " Mode")) (chars ")" ++ nl ++ nl) (t_modes t) ++
  block (chars "const (" ++ nl) (go_item (chars " Trans")) (chars ")" ++ nl ++ nl) (t_trans t) ++
  block (chars "const (" ++ nl) (go_item (chars " OpCode")) (chars ")" ++ nl ++ nl) (t_ops t) ++
  block (chars "const (" ++ nl) (go_item []) (chars ")" ++ nl) (t_others t).
(** generate_python, 244-279, and generate_ts, 281-315 *)
Definition python_item (c : const) : list N := chars "    " ++ fst c ++ chars " = " ++ snd c ++ nl.
Definition ts_item (c : const) : list N := chars "    " ++ fst c ++ chars " = " ++ snd c ++ chars "," ++ nl.
Definition python_class (name : string) : list const -> list N := block (chars "class " ++ chars name ++ chars "(IntEnum):" ++ nl) python_item nl.
Definition ts_enum (name : string) : list const -> list N := block (chars "export enum " ++ chars name ++ chars " {" ++ nl) ts_item (chars "}" ++ nl ++ nl).
Definition generate_python (t : tables) : list N :=
  chars "# Code generated by gen_bindings.c; DO NOT EDIT." ++ nl ++ chars "from enum import IntEnum" ++ nl ++ nl ++
  python_class "Error" (t_errs t) ++ python_class "Mode" (t_modes t) ++ python_class "Trans" (t_trans t) ++ python_class "OpCode" (t_ops t).
Definition generate_ts (t : tables) : list N :=
  chars "// Code generated by gen_bindings.c; DO NOT EDIT." ++ nl ++ nl ++
  ts_enum "Error" (t_errs t) ++ ts_enum "Mode" (t_modes t) ++ ts_enum "Trans" (t_trans t) ++ ts_enum "OpCode" (t_ops t).

(** The exit code and what is printed; [args] without the name of the program; [read]: the contents of a file that can be opened *)
Definition bindings (read : list N -> option (list N)) (args : list (list N)) : gen (N * list N) :=
  match args with
  | [] => Done (1, [])
  | file :: more =>
    match read file with
    | None => Done (1, [])
    | Some text =>
      let& t := gather text in
      let lang := match more with l :: _ => l | [] => chars "go" end in
      if list_eq_dec N.eq_dec lang (chars "go") then Done (0, generate_go t)
      else if list_eq_dec N.eq_dec lang (chars "python") then Done (0, generate_python t)
      else if list_eq_dec N.eq_dec lang (chars "ts") then Done (0, generate_ts t)
      else Done (1, [])
    end
  end.
