(** Expressions of the schema language, conventionally: precedence as in C, binary operators left associative, unary
    operators, parentheses, function calls; and the code of an expression. *)
From Coq Require Import Strings.String.
From Verif Require Import Base SpecBytes SpecVM ModelText SpecText ModelParse.

(** What a token is for the grammar: its kind and text *)
Definition word : Type := kind * list N.
Definition word_of (t : token) : word := (tk t, ttext t).
(** A fixed token, whatever its recorded text *)
Definition fixed (k : kind) (w : word) : Prop := fst w = k.

(** ** Syntax trees *)
Inductive fn := FSin | FCos | FTan | FSqrt | FLog | FAbs | FFloat | FInt.
Definition fn_text (f : fn) : list N :=
  chars (match f with
         | FSin => "sin" | FCos => "cos" | FTan => "tan" | FSqrt => "sqrt" | FLog => "log" | FAbs => "abs"
         | FFloat => "float" | FInt => "int"
         end).
Inductive expr :=
| XInt (v : Z)                  (* integer literal, true, false *)
| XFloat (s : list N)           (* literal with a fraction *)
| XSelf
| XField (name : list N)        (* name, or names joined by dots *)
| XBin (o : ibin) (a b : expr)
| XUn (o : iun) (a : expr)
| XFn (f : fn) (a : expr)
| XPow (a b : expr).

(** ** Grammar *)
(** Binary operators: token and level; the higher, the tighter *)
Definition operator (o : ibin) : kind * N :=
  match o with
  | ILOr => (TPipePipe, 1) | ILAnd => (TAmpAmp, 2) | IOr => (TPipe, 3) | IXor => (TCaret, 4) | IAnd => (TAmp, 5)
  | IEq => (TEqEq, 6) | INe => (TBangEq, 6)
  | ILt => (TLt, 7) | ILe => (TLtEq, 7) | IGt => (TGt, 7) | IGe => (TGtEq, 7)
  | IShl => (TLshift, 8) | IShr => (TRshift, 8)
  | IAdd => (TPlus, 9) | ISub => (TMinus, 9)
  | IMul => (TStar, 10) | IDiv => (TSlash, 10) | IMod => (TPercent, 10)
  end.
Definition unary (o : iun) : kind := match o with INeg => TMinus | INot => TTilde | ILNot => TBang end.

(** Integer literal [s] of value [v] *)
Inductive int_text : list N -> Z -> Prop :=
| it_plus s v : literal s v -> int_text s (wrap64 (Z.of_N v))
| it_minus s v : literal s v -> v mod 2 ^ 64 <> 2 ^ 63 -> int_text (45 :: s) (wrap64 (- Z.of_N v)).

(** A name, or several joined by dots; together shorter than 256 characters if there are several *)
Inductive dotted : list word -> list N -> Prop :=
| dt_name n : text n -> dotted [(TIdentifier, n)] n
| dt_dot ws n d m : dotted ws n -> fixed TDot d -> text m -> lenN n + 1 + lenN m < 256 ->
    dotted (ws ++ [d; (TIdentifier, m)]) (n ++ [46] ++ m).
Definition callable (n : list N) : Prop := n = chars "pow" \/ exists f, n = fn_text f.

(** [reads full lv ws e]: the tokens [ws] are an expression whose operators outside parentheses are at least of level
    [lv], and mean [e].  [full = false] leaves out parentheses around operands, unary operators, and hexadecimal
    literals with the digit e. *)
Inductive reads (full : bool) : N -> list word -> expr -> Prop :=
| rd_int lv s v : int_text s v -> (full = false -> ~ In 101 s /\ ~ In 69 s) -> reads full lv [(TNumber, s)] (XInt v)
| rd_float lv s : In 46 s -> reads full lv [(TNumber, s)] (XFloat s)
| rd_true lv w : fixed TTrue w -> reads full lv [w] (XInt 1)
| rd_false lv w : fixed TFalse w -> reads full lv [w] (XInt 0)
| rd_self lv w : fixed TSelf w -> reads full lv [w] XSelf
| rd_field lv n ws name : dotted ((TIdentifier, n) :: ws) name -> ~ callable n ->
    reads full lv ((TIdentifier, n) :: ws) (XField name)
| rd_fn lv f p ws q e : fixed TLparen p -> reads full 1 ws e -> fixed TRparen q ->
    reads full lv ((TIdentifier, fn_text f) :: p :: ws ++ [q]) (XFn f e)
| rd_pow lv p ws c us q a b : fixed TLparen p -> reads full 1 ws a -> fixed TComma c -> reads full 1 us b -> fixed TRparen q ->
    reads full lv ((TIdentifier, chars "pow") :: p :: ws ++ [c] ++ us ++ [q]) (XPow a b)
| rd_bin lv o w ws us a b : fixed (fst (operator o)) w -> lv <= snd (operator o) ->
    reads full (snd (operator o)) ws a -> reads full (snd (operator o) + 1) us b ->
    reads full lv (ws ++ w :: us) (XBin o a b)
| rd_un lv o w ws a : full = true -> fixed (unary o) w -> lv <= 11 -> reads full 11 ws a -> reads full lv (w :: ws) (XUn o a)
| rd_paren lv p ws q e : full = true -> fixed TLparen p -> reads full 1 ws e -> fixed TRparen q -> reads full lv (p :: ws ++ [q]) e.

(** Operators and operands following a first operand *)
Fixpoint flat (l : list (word * ibin * list word)) : list word :=
  match l with [] => [] | (w, _, ws) :: r => w :: ws ++ flat r end.

(** ** Code *)
(** Is the value an integer, a floating-point number, or what the host says *)
Fixpoint type_of (e : expr) : ety :=
  match e with
  | XInt _ => TyInt | XFloat _ => TyFloat | XSelf | XField _ => TyUnknown
  | XBin o a b =>
    match o with
    | IAdd | ISub | IMul | IDiv => if is_float (type_of a) || is_float (type_of b) then TyFloat else TyInt
    | _ => TyInt
    end
  | XUn o a => match o with INeg => if is_float (type_of a) then TyFloat else TyInt | _ => TyInt end
  | XFn f _ => match f with FInt => TyInt | _ => TyFloat end
  | XPow _ _ => TyFloat
  end.
(** Instruction of an operator, on floating-point operands where there is one *)
Definition bin_op (fl : bool) (o : ibin) : N :=
  if fl then
    match o with
    | IAdd => 0x80 | ISub => 0x81 | IMul => 0x82 | IDiv => 0x83
    | IEq => 0x92 | INe => 0x93 | IGt => 0x94 | ILt => 0x95 | IGe => 0x96 | ILe => 0x97
    | _ => ibin_op o
    end
  else ibin_op o.
Definition fn_op (f : fn) : N :=
  match f with
  | FSin => 0x85 | FCos => 0x86 | FTan => 0x87 | FSqrt => 0x88 | FLog => 0x8A | FAbs => 0x8B | FFloat => 0x90 | FInt => 0x91
  end.
(** An integer operand where a floating-point one is needed is converted: the top of the stack by ITOF, the entry below
    it by SWAP, ITOF, SWAP *)
Definition to_float (t : ety) : list N := if is_int t then [0x90] else [].
Definition balance (a b : ety) : list N :=
  if is_float a || is_float b then if is_int a then [0x63; 0x90; 0x63] else to_float b else [].
(** Postfix code, given the doubles the literals denote and the numbers of the names *)
Fixpoint code (dbl : list N -> N) (id : list N -> N) (e : expr) : list N :=
  match e with
  | XInt v => 0x61 :: bytes_of LE 8 (ofZ 8 v)
  | XFloat s => 0x61 :: bytes_of LE 8 (dbl s)
  | XSelf => [0x64]
  | XField n => 0x60 :: bytes_of LE 2 (id n)
  | XBin o a b => code dbl id a ++ code dbl id b ++ balance (type_of a) (type_of b)
      ++ [bin_op (is_float (type_of a) || is_float (type_of b)) o]
  | XUn o a => code dbl id a ++ [match o with INeg => if is_float (type_of a) then 0x84 else 0x77 | INot => 0xA3 | ILNot => 0x71 end]
  | XFn f a => code dbl id a ++ (match f with FFloat | FInt => [] | _ => to_float (type_of a) end) ++ [fn_op f]
  | XPow a b => code dbl id a ++ to_float (type_of a) ++ code dbl id b ++ to_float (type_of b) ++ [0x89]
  end.
(** Names in order of occurrence *)
Fixpoint names (e : expr) : list (list N) :=
  match e with
  | XField n => [n]
  | XBin _ a b | XPow a b => names a ++ names b
  | XUn _ a | XFn _ a => names a
  | _ => []
  end.
(** Number of a name in a table *)
Fixpoint index_of (t : list (list N)) (n : list N) : N :=
  match t with [] => 0 | x :: r => if list_eq_dec N.eq_dec x n then 0 else 1 + index_of r n end.

(** The integer expression behind a tree without floating point, calls and self *)
Fixpoint integer_expr (id : list N -> N) (e : expr) : option iexpr :=
  match e with
  | XInt v => Some (ELit (ofZ 8 v))
  | XField n => Some (EField (id n))
  | XBin o a b =>
    match integer_expr id a, integer_expr id b with Some x, Some y => Some (EBin o x y) | _, _ => None end
  | XUn o a => option_map (EUn o) (integer_expr id a)
  | _ => None
  end.

(** The parser stands before the tokens [l] and then [t], none of them an error or the end of the file *)
Definition before (p : pst) (l : list token) (t : token) (r : list token) : Prop :=
  p_cur p :: p_toks p = l ++ t :: r /\ Forall (fun t => tk t <> TError /\ tk t <> TEof) (l ++ [t]).
(** The parser after them *)
Definition beyond (p : pst) (l : list token) (t : token) (r : list token) : pst := set_tok r t (last l (p_prev p)) p.
