(** What an editor may propose where the cursor stands, from the text in front of the cursor and the definitions of the schema. *)
From Coq Require Import ZArith Strings.String.
From Verif Require Import Base ModelWord ModelTrans ModelVM ModelText ModelParse SpecText SpecDiag SpecMessage SpecSource SpecGrammar.
Local Open Scope string_scope.
Local Open Scope list_scope.
Local Open Scope N_scope.

(** The cursor stands behind [front] in the text *)
Definition cursor_at (src front : list N) (line character : Z) : Prop :=
  (exists behind, src = front ++ behind) /\ position front 0 0 = (line, character) /\ ~ In 0 front /\ lenN front < 2 ^ 64.
(** The tokens that begin in front of it *)
Definition in_front (front : list N) (ts : list token) : list token := filter (fun t => tpos t <? lenN front) ts.

(** [count k l]: how many tokens of the kind *)
Definition count (k : kind) (l : list token) : nat := List.length (filter (fun t => if kind_eq_dec (tk t) k then true else false) l).
(** Between brackets opened with a name, as in [@ name (] or [struct name {]: in front of the cursor stand such three tokens, no such three
    come later, and the bracket is not closed *)
Definition bracket_open (heads : list kind) (l r : kind) (name : list N) (ts : list token) : Prop := exists before h n o inner,
  ts = before ++ h :: n :: o :: inner /\ In (tk h) heads /\ tk n = TIdentifier /\ ttext n = name /\ tk o = l /\
  (forall a h' n' o' b, inner = a ++ h' :: n' :: o' :: b -> In (tk h') heads -> tk n' = TIdentifier -> tk o' = l -> False) /\
  (forall a b, inner = a ++ b -> (count r a <= count l a)%nat).
(** In the arguments of a decorator; in the body of a structure or packet *)
Definition arguments_of (d : list N) (ts : list token) : Prop := bracket_open [TAt] TLparen TRparen d ts.
Definition body_of (s : list N) (ts : list token) : Prop := bracket_open [TStruct; TPacket] TLbrace TRbrace s ts.
(** Behind [name.] *)
Definition behind_dot (name : list N) (ts : list token) : Prop := exists before n d, ts = before ++ [n; d] /\ tk n = TIdentifier /\ ttext n = name /\ tk d = TDot.

(** The kinds of the protocol *)
Definition function := 3. Definition field := 5. Definition class := 7. Definition enumeration := 13. Definition keyword := 14. Definition enum_member := 20.
Definition of_kind (k : N) (l : list (list N)) : list (list N * N) := map (fun n => (n, k)) l.
Definition math_functions : list (list N) := map chars ["sin"; "cos"; "tan"; "sqrt"; "log"; "abs"; "pow"; "int"; "float"].
Definition statement_words : list (list N) :=
  map chars ["struct"; "packet"; "enum"; "import"; "true"; "false"; "prefix"; "string"; "const"; "range"; "if"; "else"; "switch"; "case"; "default"].
Definition decorator_words : list (list N) :=
  map chars ["@version"; "@import"; "@big_endian"; "@be"; "@little_endian"; "@le"; "@unaligned_bytes"; "@fill"; "@crc_refin"; "@crc_refout"; "@optional";
    "@count"; "@len"; "@const"; "@match"; "@pad"; "@range"; "@crc"; "@crc_poly"; "@crc_init"; "@crc_xor"; "@scale"; "@offset"; "@mul"; "@div"; "@add";
    "@sub"; "@poly"; "@spline"; "@expr"; "@eof"].

(** The fields of what the cursor is in the body of *)
Inductive fields_in (fields : list N -> list (list N)) (ts : list token) : list (list N) -> Prop :=
| fi_body s : body_of s ts -> fields_in fields ts (fields s)
| fi_none : (forall s, ~ body_of s ts) -> fields_in fields ts [].
(** [proposed structs enums fields ts l]: with these structures and enumerations defined, and [fields s] the fields known of [s], the
    proposals behind the tokens [ts] *)
Inductive proposed (structs : list (list N)) (enums : list enum) (fields : list N -> list (list N)) (ts : list token) : list (list N * N) -> Prop :=
| pp_members e : In e enums -> behind_dot (m_name e) ts -> proposed structs enums fields ts (of_kind enum_member (map fst (m_members e)))
| pp_expr fs : (forall e, In e enums -> ~ behind_dot (m_name e) ts) -> arguments_of (chars "expr") ts -> fields_in fields ts fs ->
    proposed structs enums fields ts (of_kind function math_functions ++ of_kind field fs)
| pp_count d fs : (forall e, In e enums -> ~ behind_dot (m_name e) ts) -> In d [chars "count"; chars "len"] -> arguments_of d ts -> fields_in fields ts fs ->
    proposed structs enums fields ts (of_kind field fs)
| pp_other : (forall e, In e enums -> ~ behind_dot (m_name e) ts) -> (forall d, In d [chars "expr"; chars "count"; chars "len"] -> ~ arguments_of d ts) ->
    proposed structs enums fields ts (of_kind keyword statement_words ++ of_kind function decorator_words ++
      of_kind class structs ++ of_kind enumeration (map m_name enums)).
