(** The schema language: which texts are schemas, the names in them being what they should be.
    Words are tokens with the texts of names, numbers and strings only. *)
From Coq Require Import Strings.String.
From Verif Require Import Base SpecBytes ModelFloat SpecVM ModelText SpecText ModelVM ModelParse SpecParse SpecPacket SpecMessage SpecSource.

Definition textual (k : kind) : bool := match k with TIdentifier | TNumber | TString => true | _ => false end.
Definition shown (t : token) : word := (tk t, if textual (tk t) then ttext t else []).
Definition mark (k : kind) : word := (k, []).
Definition name (n : list N) : word := (TIdentifier, n).
Definition num (s : list N) : word := (TNumber, s).
Definition docs (ws : list word) : Prop := Forall (eq (mark TDoc)) ws.

(** ** Expressions.  In front of a parenthesised or negated expression stands one word more, whatever it is: the compiler
    does not look at it (C39_refuted_paren). *)
Definition functions : list string := ["sin"; "cos"; "tan"; "sqrt"; "log"; "abs"; "float"; "int"]%string.
Definition operators : list kind :=
  [TPipePipe; TAmpAmp; TPipe; TCaret; TAmp; TEqEq; TBangEq; TLt; TLtEq; TGt; TGtEq; TLshift; TRshift; TPlus; TMinus; TStar; TSlash; TPercent].
(** ".name" any number of times *)
Inductive selectors : list word -> Prop :=
| sel_none : selectors []
| sel_more n ws : selectors ws -> selectors (mark TDot :: name n :: ws).
Inductive expression : list word -> Prop :=
| ex_number s : expression [num s]
| ex_constant k : In k [TTrue; TFalse; TSelf] -> expression [mark k]
| ex_name n ws : ~ In n (map chars ("pow"%string :: functions)) -> selectors ws -> expression (name n :: ws)
| ex_call f ws : In f functions -> expression ws -> expression (ident f :: mark TLparen :: ws ++ [mark TRparen])
| ex_pow ws us : expression ws -> expression us ->
    expression (ident "pow" :: mark TLparen :: ws ++ [mark TComma] ++ us ++ [mark TRparen])
| ex_unary o w ws : In o [TMinus; TBang; TTilde] -> expression ws -> expression (mark o :: w :: ws)
| ex_paren w ws : expression ws -> expression (mark TLparen :: w :: ws ++ [mark TRparen])
| ex_binary o ws us : In o operators -> expression ws -> expression us -> expression (ws ++ mark o :: us).

(** ** Decorators of a field *)
Inductive deco :=
| Flag (s : string)                       (* @s *)
| Fill (n : list N)                       (* @fill(n) *)
| Number (s : string) (n : list N)        (* @s(n) *)
| Count (n : list N)                      (* @count(name), @len(name) *)
| Limits (lo hi : list N)                 (* @range(lo, hi) *)
| Poly (l : list (list N))                (* @poly(n, ...) *)
| Spline (l : list (list N * list N))     (* @spline(x, y, ...) *)
| Formula.                                (* @expr(...) *)
Definition flags : list string :=
  ["big_endian"; "be"; "little_endian"; "le"; "fill"; "crc_refin"; "crc_refout"; "optional"; "eof"]%string.
Definition transforms : list string := ["scale"; "offset"; "mul"; "div"; "add"; "sub"]%string.
Definition sizes : list string := ["count"; "len"]%string.
Definition numbers : list string := sizes ++ const_words ++ ["pad"; "crc"; "crc_poly"; "crc_init"; "crc_xor"]%string ++ transforms.
Fixpoint commas (l : list (list N)) : list word :=
  match l with [] => [] | [n] => [num n] | n :: r => num n :: mark TComma :: commas r end.
Inductive deco_read : deco -> list word -> Prop :=
| dr_flag s : In s flags -> deco_read (Flag s) [mark TAt; ident s]
| dr_fill n : (forall v, literal n v -> v < 256 -> v <= 1) ->
    deco_read (Fill n) [mark TAt; ident "fill"; mark TLparen; num n; mark TRparen]
| dr_number s n : In s numbers -> deco_read (Number s n) [mark TAt; ident s; mark TLparen; num n; mark TRparen]
| dr_count s n : In s sizes -> deco_read (Count n) [mark TAt; ident s; mark TLparen; name n; mark TRparen]
| dr_limits lo hi : deco_read (Limits lo hi) [mark TAt; ident "range"; mark TLparen; num lo; mark TComma; num hi; mark TRparen]
| dr_poly l : l <> [] -> lenN l <= 16 -> deco_read (Poly l) ([mark TAt; ident "poly"; mark TLparen] ++ commas l ++ [mark TRparen])
| dr_spline l : l <> [] -> lenN l <= 16 ->
    deco_read (Spline l) ([mark TAt; ident "spline"; mark TLparen] ++ commas (flat_map (fun p => [fst p; snd p]) l) ++ [mark TRparen])
| dr_formula ws : expression ws -> deco_read Formula ([mark TAt; ident "expr"; mark TLparen] ++ ws ++ [mark TRparen]).
Inductive decos_read : list deco -> list word -> Prop :=
| dsr_none : decos_read [] []
| dsr_more d l ws wr : deco_read d ws -> decos_read l wr -> decos_read (d :: l) (ws ++ wr).

(** Of several decorators of a kind the last counts *)
Definition latest {A} (f : deco -> option A) (l : list deco) : option A :=
  fold_left (fun r d => match f d with Some x => Some x | None => r end) l None.
Definition among (l : list string) (s : string) : bool := existsb (String.eqb s) l.
Definition constant_of : list deco -> option (list N) :=
  latest (fun d => match d with Number s n => if among const_words s then Some n else None | _ => None end).
Definition limits_of : list deco -> option (list N * list N) := latest (fun d => match d with Limits lo hi => Some (lo, hi) | _ => None end).
Definition crc_of : list deco -> option (list N) :=
  latest (fun d => match d with Number s n => if String.eqb s "crc" then Some n else None | _ => None end).
Definition transformed (d : deco) : bool := match d with Number s _ => among transforms s | Poly _ | Spline _ => true | _ => false end.
(** @pad and @fill need no field *)
Definition standing (d : deco) : bool := match d with Number s _ => String.eqb s "pad" | Fill _ => true | Flag s => String.eqb s "fill" | _ => false end.
Definition sized (d : deco) : bool := match d with Number s _ => among sizes s | Count _ => true | _ => false end.
Definition formula (d : deco) : bool := match d with Formula => true | _ => false end.

(** ** Fields *)

(** What follows the name: a width in bits; brackets, empty or with a number; "prefix type", or "until n", "max n" *)
Record shape := { width : option (list N); brackets : option (option (list N)); prefix : option string; until : option (list N); most : option (list N) }.
Definition opt {A} (f : A -> list word) (o : option A) : list word := match o with Some a => f a | None => [] end.
Definition shape_words (s : shape) : list word :=
  opt (fun n => [mark TColon; num n]) (width s) ++
  opt (fun b => mark TLbracket :: opt (fun n => [num n]) b ++ [mark TRbracket]) (brackets s) ++
  opt (fun p => [ident "prefix"; ident p]) (prefix s) ++
  opt (fun n => [ident "until"; num n]) (until s) ++ opt (fun n => [ident "max"; num n]) (most s).
Definition open_array (s : shape) : bool := match brackets s with Some None => true | _ => false end.
Definition no_width (s : shape) : Prop := match width s with None => True | Some n => forall v, literal n v -> v < 256 -> v = 0 end.

(** What is known where a field stands: structures, enumerations, the structure it is in, whether that is bit-packed *)
Record scope := { structs : list (list N); enums : list enum; inside : option (list N); packed : bool }.

(** Prefixes: of an array of unknown size, or of a string; of one of three types *)
Definition prefix_ok (t : list N) (ds : list deco) (s : shape) : Prop :=
  (forall p, prefix s = Some p -> In p (map snd counter_words) /\ until s = None /\ most s = None /\
     ((open_array s && negb (existsb sized ds)) = true \/ t = chars "string")) /\
  (until s <> None \/ most s <> None -> t = chars "string").

(** The constant fits the type, where that is narrower than 64 bits; the limits are in order *)
Definition fair_constant (ty : N) (n : list N) : Prop :=
  ty <> 0x13 -> ty <> 0x17 -> forall v, int_text n v -> in_type ty v.
Definition fair_limits (ty : N) (l : option (list N * list N)) : Prop :=
  match l with Some (a, b) => forall lo hi, writes ty a lo -> writes ty b hi -> (lo <= hi)%Z | None => True end.
Definition fair_crc (ty : N) (n : list N) : Prop := (literal n 16 -> ty = 0x11) /\ (literal n 32 -> ty = 0x12).

(** A field of the type [t] with these decorators *)
Definition unknown (c : scope) (t : list N) : Prop := ~ In t (structs c) /\ ~ In t (map m_name (enums c)).
Definition bare (ds : list deco) : Prop := existsb transformed ds = false /\ crc_of ds = None.
Inductive typed (c : scope) (t : list N) (ds : list deco) (s : shape) : Prop :=
| ty_constant n ty u : constant_of ds = Some n -> In (ty, u) type_words -> type_bytes ty <> None -> t = chars u ->
    fair_constant ty n -> fair_limits ty (limits_of ds) -> typed c t ds s
| ty_struct : constant_of ds = None -> In t (structs c) -> inside c <> Some t -> bare ds -> limits_of ds = None -> no_width s -> typed c t ds s
| ty_enum e : constant_of ds = None -> ~ In t (structs c) -> In e (enums c) -> m_name e = t -> bare ds -> no_width s ->
    fair_limits (m_type e) (limits_of ds) -> typed c t ds s
| ty_string : constant_of ds = None -> unknown c t -> t = chars "string" -> bare ds -> limits_of ds = None -> no_width s ->
    (brackets s <> None -> until s <> None \/ prefix s <> None /\ (open_array s && negb (existsb sized ds)) = false) -> typed c t ds s
| ty_basic ty u : constant_of ds = None -> unknown c t -> In (ty, u) type_words -> t = chars u ->
    (In ty [0x18; 0x19] -> packed c = false /\ no_width s) ->
    (packed c = false -> width s = None ->
       match crc_of ds with
       | Some n => fair_crc ty n
       | None => existsb formula ds = false -> fair_limits ty (limits_of ds)
       end) -> typed c t ds s.

(** ** Statements.  [stmt c before ws after]: the statement [ws], the fields [before] being there, adds up to [after]. *)

(** A label: a number, a member of an enumeration, or nothing, which counts as 0 *)
Definition denotes (s : list N) (z : Z) : Prop := forall v, int_text s v -> z = v.
Inductive label (es : list enum) : list word -> Z -> Prop :=
| lb_number s z : denotes s z -> label es [num s] z
| lb_member e n z : In e es -> In (n, z) (m_members e) -> label es [name (m_name e); mark TDot; name n] z
| lb_none : label es [] 0.
Inductive stmt (c : scope) : list (list N) -> list word -> list (list N) -> Prop :=
| sg_field fs dw ds t n s : decos_read ds dw -> ~ In n fs -> prefix_ok t ds s -> typed c t ds s ->
    stmt c fs (dw ++ [name t; name n] ++ shape_words s ++ [mark TSemicolon]) (fs ++ [n])
| sg_standing fs dw ds : decos_read ds dw -> existsb standing ds = true -> stmt c fs (dw ++ [mark TSemicolon]) fs
| sg_if fs ws gs : choice c fs ws gs -> stmt c fs (mark TIf :: ws) gs
| sg_switch fs n ws gs : cases c [] fs ws gs ->
    stmt c fs ([mark TSwitch; mark TLparen; name n; mark TRparen; mark TLbrace] ++ ws ++ [mark TRbrace]) gs
with choice (c : scope) : list (list N) -> list word -> list (list N) -> Prop :=
| ch_if fs ew bw gs : expression ew -> block c fs bw gs -> choice c fs (mark TLparen :: ew ++ mark TRparen :: bw) gs
| ch_else fs ew bw gs ws hs : expression ew -> block c fs bw gs -> block c gs ws hs ->
    choice c fs (mark TLparen :: ew ++ mark TRparen :: bw ++ mark TElse :: ws) hs
| ch_else_if fs ew bw gs ws hs : expression ew -> block c fs bw gs -> choice c gs ws hs ->
    choice c fs (mark TLparen :: ew ++ mark TRparen :: bw ++ mark TElse :: mark TIf :: ws) hs
with block (c : scope) : list (list N) -> list word -> list (list N) -> Prop :=
| bl fs ws gs : stmts c fs ws gs -> block c fs (mark TLbrace :: ws ++ [mark TRbrace]) gs
with stmts (c : scope) : list (list N) -> list word -> list (list N) -> Prop :=
| sg_end fs : stmts c fs [] fs
| sg_doc fs ws gs : stmts c fs ws gs -> stmts c fs (mark TDoc :: ws) gs
| sg_more fs ws gs wr hs : stmt c fs ws gs -> stmts c gs wr hs -> stmts c fs (ws ++ wr) hs
| sg_last fs dw ds : decos_read ds dw -> existsb standing ds = true -> stmts c fs dw fs    (* the last one needs no semicolon *)
with cases (c : scope) : list Z -> list (list N) -> list word -> list (list N) -> Prop :=
| cg_end seen fs : cases c seen fs [] fs
| cg_case seen fs lw z bw gs wr hs : label (enums c) lw z -> ~ In z seen -> body c fs bw gs -> cases c (z :: seen) gs wr hs ->
    cases c seen fs (mark TCase :: lw ++ mark TColon :: bw ++ wr) hs
| cg_default seen fs bw gs wr hs : body c fs bw gs -> cases c seen gs wr hs ->
    cases c seen fs (mark TDefault :: mark TColon :: bw ++ wr) hs
| cg_last seen fs lw z dw ds ew : label (enums c) lw z -> ~ In z seen -> docs ew -> decos_read ds dw -> existsb standing ds = true ->
    cases c seen fs (mark TCase :: lw ++ mark TColon :: ew ++ dw) fs
| cg_last_default seen fs dw ds ew : docs ew -> decos_read ds dw -> existsb standing ds = true ->
    cases c seen fs (mark TDefault :: mark TColon :: ew ++ dw) fs
with body (c : scope) : list (list N) -> list word -> list (list N) -> Prop :=
| bd_block fs ws gs : block c fs ws gs -> body c fs ws gs
| bd_stmt fs dw ws gs : docs dw -> stmt c fs ws gs -> body c fs (dw ++ ws) gs.

(** ** Enumerations *)
Inductive members : list (list N * Z) -> Z -> list word -> list (list N * Z) -> Prop :=
| mb_end seen next : members seen next [] seen
| mb_doc seen next ws l : members seen next ws l -> members seen next (mark TDoc :: ws) l
| mb_auto seen next n cw ws l : ~ In n (map fst seen) -> ~ In next (map snd seen) -> cw = [] \/ cw = [mark TComma] ->
    members (seen ++ [(n, next)]) (next + 1) ws l -> members seen next (name n :: cw ++ ws) l
| mb_given seen next n s z cw ws l : ~ In n (map fst seen) -> denotes s z -> ~ In z (map snd seen) -> cw = [] \/ cw = [mark TComma] ->
    members (seen ++ [(n, z)]) (z + 1) ws l -> members seen next (name n :: mark TEquals :: num s :: cw ++ ws) l.

(** ** Files *)

(** What is known at the top level: definitions, files read, packets, whether the next structure is to be bit-packed *)
Record known := { k_structs : list (list N); k_enums : list enum; k_files : list (list N); k_packets : N; k_packed : bool }.
Definition fresh (k : known) (n : list N) : Prop := ~ In n (k_structs k) /\ ~ In n (map m_name (k_enums k)).
Definition add_enum (e : enum) (k : known) : known :=
  {| k_structs := k_structs k; k_enums := k_enums k ++ [e]; k_files := k_files k; k_packets := k_packets k; k_packed := k_packed k |}.
Definition add_struct (n : list N) (k : known) : known :=
  {| k_structs := k_structs k ++ [n]; k_enums := k_enums k; k_files := k_files k; k_packets := k_packets k; k_packed := false |}.
Definition add_packet (k : known) : known :=
  {| k_structs := k_structs k; k_enums := k_enums k; k_files := k_files k; k_packets := 1; k_packed := k_packed k |}.
Definition add_file (f : list N) (k : known) : known :=
  {| k_structs := k_structs k; k_enums := k_enums k; k_files := k_files k ++ [f]; k_packets := k_packets k; k_packed := k_packed k |}.
Definition pack (k : known) : known :=
  {| k_structs := k_structs k; k_enums := k_enums k; k_files := k_files k; k_packets := k_packets k; k_packed := true |}.
(** Inside a structure its own name is known, and cannot be used; packets are never bit-packed *)
Definition in_struct (n : list N) (k : known) : scope :=
  {| structs := k_structs k ++ [n]; enums := k_enums k; inside := Some n; packed := k_packed k |}.
Definition in_packet (k : known) : scope := {| structs := k_structs k; enums := k_enums k; inside := None; packed := false |}.

Inductive definition (k : known) : list word -> known -> Prop :=
| df_none : definition k [mark TSemicolon] k
| df_enum n tw ty ws l : fresh k n ->
    (tw = [] /\ ty = 0x12 \/ exists u, In (ty, u) enum_words /\ tw = [mark TColon; ident u]) -> members [] 0 ws l ->
    definition k ([mark TEnum; name n] ++ tw ++ [mark TLbrace] ++ ws ++ [mark TRbrace]) (add_enum {| m_name := n; m_type := ty; m_members := l |} k)
| df_struct n bw fs : fresh k n -> block (in_struct n k) [] bw fs -> definition k (mark TStruct :: name n :: bw) (add_struct n k)
| df_packet n bw fs : fresh k n -> k_packets k = 0 -> block (in_packet k) [] bw fs -> definition k (mark TPacket :: name n :: bw) (add_packet k)
| df_alias n s : fresh k n -> k_packets k = 0 -> In s (k_structs k) ->
    definition k [mark TPacket; name n; mark TEquals; name s; mark TSemicolon] (add_packet k).

Definition slash (c : N) : Prop := c = 47 \/ c = 92.
(** The path [s], relative to the directory of the file [at_] *)
Definition relative (at_ s r : list N) : Prop :=
  exists d b, at_ = d ++ b /\ (d = [] \/ exists d' c, d = d' ++ [c] /\ slash c) /\ Forall (fun c => ~ slash c) b /\ r = d ++ s.
(** A file and its words *)
Definition file_words (E : env) (path : list N) (ws : list word) : Prop :=
  exists src toks, e_read E path = Some src /\ lex src = Some toks /\ map shown toks = ws ++ [mark TEof].
Definition top_flags : list string := ["big_endian"; "little_endian"; "le"; "unaligned_bytes"]%string.
Inductive file (E : env) (path : list N) : known -> list word -> known -> Prop :=
| fl_end k dw k' : settings E path k dw k' -> file E path k dw k'
| fl_doc k ws k' : file E path k ws k' -> file E path k (mark TDoc :: ws) k'
| fl_more k dw k1 w k2 ws k' : settings E path k dw k1 -> definition k1 w k2 -> file E path k2 ws k' -> file E path k (dw ++ w ++ ws) k'
(** Decorators in front of a definition *)
with settings (E : env) (path : list N) : known -> list word -> known -> Prop :=
| sn_none k : settings E path k [] k
| sn_version k n ws k' : settings E path k ws k' ->
    settings E path k ([mark TAt; ident "version"; mark TLparen; num n; mark TRparen] ++ ws) k'
| sn_flag k s ws k' : In s top_flags -> settings E path (if String.eqb s "unaligned_bytes" then pack k else k) ws k' ->
    settings E path k ([mark TAt; ident s] ++ ws) k'
| sn_known k s f ws k' : relative path s f -> lenN s < 256 -> In (e_canon E f) (k_files k) -> settings E path k ws k' ->
    settings E path k ([mark TAt; ident "import"; mark TLparen; (TString, s); mark TRparen] ++ ws) k'
| sn_import k s f fw k1 ws k' : relative path s f -> lenN s < 256 -> ~ In (e_canon E f) (k_files k) -> file_words E (e_canon E f) fw ->
    file E (e_canon E f) (add_file (e_canon E f) k) fw k1 -> settings E path k1 ws k' ->
    settings E path k ([mark TAt; ident "import"; mark TLparen; (TString, s); mark TRparen] ++ ws) k'
| sn_other k n aw ws k' : ~ In n (map chars ("version" :: "import" :: top_flags)%string) ->
    (aw = [] \/ exists bw, aw = mark TLparen :: bw ++ [mark TRparen] /\ Forall (fun w => ~ In (fst w) [TRparen; TEof; TError]) bw) ->
    settings E path k ws k' -> settings E path k ([mark TAt; name n] ++ aw ++ ws) k'.

(** A schema: a file, with those it imports, in which one packet is defined *)
Definition start_known (path : list N) : known := {| k_structs := []; k_enums := []; k_files := [path]; k_packets := 0; k_packed := false |}.
Definition schema (E : env) (path : list N) : Prop :=
  exists ws k, file_words E path ws /\ file E path (start_known path) ws k /\ k_packets k = 1.
