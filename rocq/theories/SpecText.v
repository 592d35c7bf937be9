(** Literals, interning and tokens, declaratively. *)
From Verif Require Import Base SpecVM ModelText.

(** ** Literals *)
(** Value of a digit sequence, most significant first *)
Fixpoint positional (base : N) (ds : list N) : N :=
  match ds with [] => 0 | d :: r => d * base ^ lenN r + positional base r end.
(** Characters of the decimal and hexadecimal digits *)
Definition dec_char (c d : N) : Prop := d < 10 /\ c = 48 + d.
Definition hex_char (c d : N) : Prop := dec_char c d \/ (10 <= d < 16 /\ (c = 97 + (d - 10) \/ c = 65 + (d - 10))).
(** [s] is a decimal or hexadecimal literal of value [v] *)
Inductive literal : list N -> N -> Prop :=
| lit_dec s ds : Forall2 dec_char s ds -> literal s (positional 10 ds)
| lit_hex x s ds : s <> [] -> x = 120 \/ x = 88 -> Forall2 hex_char s ds -> literal (48 :: x :: s) (positional 16 ds).
(** Two's complement reading of 64 bits *)
Definition wrap64 (z : Z) : Z := ((z + 2 ^ 63) mod 2 ^ 64 - 2 ^ 63)%Z.

(** ** Interning a sequence of names, from an empty table: final table and the identifiers *)
Fixpoint intern (t : list (list N)) (names : list (list N)) : list (list N) * list N :=
  match names with
  | [] => (t, [])
  | s :: r => let (t', i) := strtab_add t s in let (t'', is) := intern t' r in (t'', i :: is)
  end.

(** ** Tokens *)
(** Number of newlines *)
Definition newlines (l : list N) : N := lenN (filter (N.eqb 10) l).
(** The character following, 0 at the end *)
Definition next_char (l : list N) : N := match l with [] => 0 | c :: _ => c end.

(** [blank g r]: the text [g], followed by [r], is only white space and comments.  A line comment runs up to a newline or
    the end and does not start with three slashes; a block comment up to the first star-slash or the end. *)
Inductive blank : list N -> list N -> Prop :=
| b_nil r : blank [] r
| b_ws c g r : In c [32; 13; 9; 10] -> blank g r -> blank (c :: g) r
| b_line t g r : ~ In 10 t -> next_char t <> 47 -> In (next_char (g ++ r)) [0; 10] -> blank g r ->
    blank (47 :: 47 :: t ++ g) r
| b_block t g r : (forall a b, t <> a ++ [42; 47] ++ b) -> blank g r -> blank (47 :: 42 :: t ++ [42; 47] ++ g) r
| b_open t : (forall a b, t <> a ++ [42; 47] ++ b) -> blank (47 :: 42 :: t) [].

(** Spelling of the fixed tokens *)
Definition symbols : list (kind * list N) :=
  [(TLbrace, [123]); (TRbrace, [125]); (TLbracket, [91]); (TRbracket, [93]); (TLparen, [40]); (TRparen, [41]);
   (TSemicolon, [59]); (TColon, [58]); (TComma, [44]); (TAt, [64]); (TEquals, [61]); (TDot, [46]); (TBang, [33]);
   (TAmp, [38]); (TPipe, [124]); (TCaret, [94]); (TTilde, [126]); (TEqEq, [61; 61]); (TBangEq, [33; 61]); (TGt, [62]);
   (TLt, [60]); (TGtEq, [62; 61]); (TLtEq, [60; 61]); (TAmpAmp, [38; 38]); (TPipePipe, [124; 124]);
   (TLshift, [60; 60]); (TRshift, [62; 62]); (TPlus, [43]); (TMinus, [45]); (TStar, [42]); (TSlash, [47]); (TPercent, [37])].
Definition words : list (kind * list N) :=
  [(TStruct, [115; 116; 114; 117; 99; 116]); (TPacket, [112; 97; 99; 107; 101; 116]); (TEnum, [101; 110; 117; 109]);
   (TSwitch, [115; 119; 105; 116; 99; 104]); (TCase, [99; 97; 115; 101]); (TDefault, [100; 101; 102; 97; 117; 108; 116]);
   (TIf, [105; 102]); (TElse, [101; 108; 115; 101]); (TTrue, [116; 114; 117; 101]); (TFalse, [102; 97; 108; 115; 101]);
   (TSelf, [115; 101; 108; 102])].

Definition all (p : N -> bool) (l : list N) : Prop := Forall (fun c => p c = true) l.
(** Number literals: [-]0x… or [-]digits[.digits], as long as possible before the character [n] and the text after *)
Inductive number_text : list N -> list N -> Prop :=
| num_hex m x h r : m = [] \/ m = [45] -> x = 120 \/ x = 88 -> all is_hex h -> is_hex (next_char r) = false ->
    number_text (m ++ 48 :: x :: h) r
| num_int m d a r : m = [] \/ m = [45] -> is_digit d = true -> all is_digit a -> is_digit (next_char r) = false ->
    ~ (next_char r = 46 /\ is_digit (next_char (tl r)) = true) ->
    ~ (d = 48 /\ a = [] /\ (next_char r = 120 \/ next_char r = 88)) -> number_text (m ++ d :: a) r
| num_frac m d a f g r : m = [] \/ m = [45] -> is_digit d = true -> all is_digit a -> is_digit f = true -> all is_digit g ->
    is_digit (next_char r) = false -> number_text (m ++ d :: a ++ 46 :: f :: g) r.

(** [spelled k s r]: [s] followed by [r] is the text of a token of kind [k], as long as possible *)
Inductive spelled : kind -> list N -> list N -> Prop :=
| sp_symbol k s r : In (k, s) symbols ->
    (forall k' , ~ In (k', s ++ [next_char r]) symbols) ->
    (k = TMinus -> is_digit (next_char r) = false) ->
    (k = TSlash -> next_char r <> 47 /\ next_char r <> 42) -> spelled k s r
| sp_word k s r : In (k, s) words -> is_alnum (next_char r) = false -> spelled k s r
| sp_name c s r : is_alpha c = true -> all is_alnum s -> is_alnum (next_char r) = false ->
    (forall k, ~ In (k, c :: s) words) -> spelled TIdentifier (c :: s) r
| sp_number s r : number_text s r -> spelled TNumber s r
| sp_error c r : is_alnum c = false -> ~ In c [32; 13; 9; 10; 34] -> (forall k, ~ In (k, [c]) symbols) -> spelled TError [c] r.

(** [piece k before s after r]: in the text [before ++ s ++ after ++ r] the token of kind [k] with text [s] stands first *)
Inductive piece : kind -> list N -> list N -> list N -> list N -> Prop :=
| pc_plain k s r : spelled k s r -> piece k [] s [] r
| pc_doc s r : ~ In 10 s -> ~ In 13 s -> In (next_char r) [0; 10; 13] -> piece TDoc [47; 47; 47] s [] r
| pc_string s r : ~ In 34 s -> piece TString [34] s [34] r
| pc_string_open s : ~ In 34 s -> piece TString [34] s [] [].

(** [tokens_of pos l ts]: the text [l], standing at position [pos], consists of the tokens [ts] in order, separated by white
    space and comments only, up to the end-of-file token *)
Inductive tokens_of : N -> list N -> list token -> Prop :=
| to_end pos g e : blank g [] -> tk e = TEof -> ttext e = [] -> tpos e = pos + lenN g -> tokens_of pos g [e]
| to_next pos g t before after r ts : blank g (before ++ ttext t ++ after ++ r) ->
    piece (tk t) before (ttext t) after r -> tpos t = pos + lenN g + lenN before ->
    tokens_of (pos + lenN g + lenN before + lenN (ttext t) + lenN after) r ts ->
    tokens_of pos (g ++ before ++ ttext t ++ after ++ r) (t :: ts).
