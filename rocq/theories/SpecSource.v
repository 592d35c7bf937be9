(** Packets of fields with decorators, computed fields, enumerations, conditionals and switches: how they are written and
    what they mean. *)
From Coq Require Import Strings.String.
From Verif Require Import Base SpecBytes ModelFloat SpecVM ModelText SpecText ModelVM ModelTrans ModelParse SpecParse SpecNames SpecPacket SpecMessage.

(** ** Syntax *)

(** Decorators of a field: its byte order ([true]: big endian), its constant value, the range of its values *)
Inductive dec := Order (big : bool) | Const (c : Z) | Range (lo hi : Z).
(** A field of a scalar type; of an enumeration, if there is a list of members *)
Record item := { i_decs : list dec; i_type : N; i_members : option (list Z); i_name : list N }.
(** A field whose value is that of an expression: @expr(c_expr) c_type c_name; with byte orders in front of and behind @expr *)
Record computed := { c_orders : list bool; c_expr : expr; c_later : list bool; c_type : N; c_name : list N }.
Definition c_big (c : computed) : bool := last (c_orders c ++ c_later c) false.
Inductive leaf := Plain (f : item) | Computed (c : computed).
Definition leaf_name (f : leaf) : list N := match f with Plain f => i_name f | Computed c => c_name c end.
(** Fields one after another; if (c) \{ thn \} else \{ els \}; switch (n) \{ cs \} with "case" and "default" ([None]) *)
Inductive prog := End | Field (f : leaf) (rest : prog) | If (c : expr) (thn els rest : prog) | Switch (n : list N) (cs : cases) (rest : prog)
with cases := Stop | Case (l : option Z) (b : prog) (more : cases).
Scheme prog_mut := Induction for prog Sort Prop with cases_mut := Induction for cases Sort Prop.
Combined Scheme prog_cases_ind from prog_mut, cases_mut.
Fixpoint labels (cs : cases) : list Z :=
  match cs with Stop => [] | Case l _ more => match l with Some z => [z] | None => [] end ++ labels more end.
(** A single statement *)
Definition single (p : prog) : Prop := match p with Field _ End | If _ _ _ End | Switch _ _ End => True | _ => False end.

(** Of several decorators of a kind the last counts *)
Definition last_of {A} (f : dec -> option A) (l : list dec) : option A :=
  fold_left (fun r d => match f d with Some x => Some x | None => r end) l None.
Definition i_big (f : item) : bool :=
  match last_of (fun d => match d with Order b => Some b | _ => None end) (i_decs f) with Some b => b | None => false end.
Definition i_const (f : item) : option Z := last_of (fun d => match d with Const c => Some c | _ => None end) (i_decs f).
Definition i_range (f : item) : option (Z * Z) := last_of (fun d => match d with Range lo hi => Some (lo, hi) | _ => None end) (i_decs f).

(** Integers of an integer type, as written; not -2^63, which the compiler cannot negate *)
Definition in_type (ty : N) (z : Z) : Prop := match type_bytes ty with Some n => fits n (type_signed ty) z | None => False end.
Inductive writes (ty : N) : list N -> Z -> Prop :=
| writes_plus s n : literal s n -> in_type ty (Z.of_N n) -> writes ty s (Z.of_N n)
| writes_minus s n : type_signed ty = true -> literal s n -> in_type ty (- Z.of_N n) -> n < 2 ^ 63 -> writes ty (45 :: s) (- Z.of_N n).

(** An enumeration: its name, its type and its members *)
Record enum := { m_name : list N; m_type : N; m_members : list (list N * Z) }.
Definition enum_words : list (N * string) :=
  [(0x10, "uint8"); (0x10, "u8"); (0x11, "uint16"); (0x11, "u16"); (0x12, "uint32"); (0x12, "u32"); (0x13, "uint64"); (0x13, "u64");
   (0x14, "int8"); (0x14, "i8"); (0x15, "int16"); (0x15, "i16"); (0x16, "int32"); (0x16, "i32"); (0x17, "int64"); (0x17, "i64")]%string.
Definition comma (c : list word) : Prop := c = [sign TComma ","] \/ c = [].
(** Members with and without a value; [next]: the value without one.  The compiler increments every value, so 2^63 - 1 is out. *)
Inductive members_read (ty : N) : Z -> list (list N * Z) -> list word -> Prop :=
| mem_none next : members_read ty next [] []
| mem_auto next n c l ws : in_type ty next -> (next < 2 ^ 63 - 1)%Z -> comma c -> members_read ty (next + 1) l ws ->
    members_read ty next ((n, next) :: l) ((TIdentifier, n) :: c ++ ws)
| mem_given next n s z c l ws : writes ty s z -> (z < 2 ^ 63 - 1)%Z -> comma c -> members_read ty (z + 1) l ws ->
    members_read ty next ((n, z) :: l) ((TIdentifier, n) :: sign TEquals "=" :: (TNumber, s) :: c ++ ws).
Definition enum_read (e : enum) (ws : list word) : Prop :=
  exists t ms, (t = [] /\ m_type e = 0x12 \/ exists s, In (m_type e, s) enum_words /\ t = [sign TColon ":"; ident s]) /\
  members_read (m_type e) 0 (m_members e) ms /\ NoDup (map fst (m_members e)) /\ NoDup (map snd (m_members e)) /\ lenN (m_members e) < 2 ^ 16 /\
  ws = sign TEnum "enum" :: (TIdentifier, m_name e) :: t ++ [sign TLbrace "{"] ++ ms ++ [sign TRbrace "}"].
Inductive enums_read : list enum -> list word -> Prop :=
| enums_none : enums_read [] []
| enums_more e l ws wr : enum_read e ws -> enums_read l wr -> enums_read (e :: l) (ws ++ wr).

(** Fields *)
Definition const_words : list string := ["const"; "match"]%string.
Inductive dec_read (ty : N) : dec -> list word -> Prop :=
| read_order b s : In (b, s) order_words -> dec_read ty (Order b) [sign TAt "@"; ident s]
| read_const w s z : In w const_words -> writes ty s z ->
    dec_read ty (Const z) [sign TAt "@"; ident w; sign TLparen "("; (TNumber, s); sign TRparen ")"]
| read_range s lo u hi : writes ty s lo -> writes ty u hi -> (lo <= hi)%Z ->
    dec_read ty (Range lo hi) [sign TAt "@"; ident "range"; sign TLparen "("; (TNumber, s); sign TComma ","; (TNumber, u); sign TRparen ")"].
Inductive decs_read (ty : N) : list dec -> list word -> Prop :=
| decs_none : decs_read ty [] []
| decs_more d l ws wr : dec_read ty d ws -> decs_read ty l wr -> decs_read ty (d :: l) (ws ++ wr).
Inductive type_read (es : list enum) : N -> option (list Z) -> word -> Prop :=
| read_scalar ty s : In (ty, s) type_words -> type_read es ty None (ident s)
| read_enum e : In e es -> type_read es (m_type e) (Some (map snd (m_members e))) (TIdentifier, m_name e).
Definition item_read (es : list enum) (f : item) (ws : list word) : Prop :=
  exists ds t, decs_read (i_type f) (i_decs f) ds /\ type_read es (i_type f) (i_members f) t /\ (i_members f <> None -> i_const f = None) /\
  ws = ds ++ [t; (TIdentifier, i_name f); sign TSemicolon ";"].

(** Integer expressions *)
Fixpoint integral (e : expr) : Prop :=
  match e with
  | XInt _ | XField _ => True
  | XBin _ a b => integral a /\ integral b
  | XUn _ a => integral a
  | _ => False
  end.
(** Values at hand at once while it is evaluated: the machine has room for 8 *)
Fixpoint at_once (e : expr) : N :=
  match e with XBin _ a b => N.max (at_once a) (1 + at_once b) | XUn _ a => at_once a | _ => 1 end.
Definition condition_read (c : expr) (ws : list word) : Prop := reads false 1 ws c /\ integral c /\ at_once c <= 8.
Definition computed_read (c : computed) (ws : list word) : Prop :=
  exists os ew ls s, orders_read order_words (c_orders c) os /\ condition_read (c_expr c) ew /\ orders_read order_words (c_later c) ls /\
  In (c_type c, s) type_words /\ type_bytes (c_type c) <> None /\
  ws = os ++ [sign TAt "@"; ident "expr"; sign TLparen "("] ++ ew ++ [sign TRparen ")"] ++ ls ++ [ident s; (TIdentifier, c_name c); sign TSemicolon ";"].
Definition leaf_read (es : list enum) (f : leaf) (ws : list word) : Prop :=
  match f with Plain f => item_read es f ws | Computed c => computed_read c ws end.

Definition if_words (cond thn : list word) : list word :=
  [sign TIf "if"; sign TLparen "("] ++ cond ++ [sign TRparen ")"; sign TLbrace "{"] ++ thn ++ [sign TRbrace "}"].
Definition switch_words (n : list N) (cs : list word) : list word :=
  [sign TSwitch "switch"; sign TLparen "("; (TIdentifier, n); sign TRparen ")"; sign TLbrace "{"] ++ cs ++ [sign TRbrace "}"].
(** A label: a number, or the member of an enumeration *)
Inductive label_read (es : list enum) : option Z -> list word -> Prop :=
| label_number ty s z : In ty [0x13; 0x17] -> writes ty s z -> label_read es (Some z) [sign TCase "case"; (TNumber, s)]
| label_member e n z : In e es -> In (n, z) (m_members e) ->
    label_read es (Some z) [sign TCase "case"; (TIdentifier, m_name e); sign TDot "."; (TIdentifier, n)]
| label_default : label_read es None [sign TDefault "default"].
(** An integer as a bit pattern of its type *)
Definition pattern (ty : N) (z : Z) : N := Z.to_N (z mod 2 ^ (8 * Z.of_N (width ty))).
Inductive prog_read (es : list enum) : prog -> list word -> Prop :=
| read_end : prog_read es End []
| read_field f p ws wr : leaf_read es f ws -> prog_read es p wr -> prog_read es (Field f p) (ws ++ wr)
| read_if c t p cw tw wr : condition_read c cw -> prog_read es t tw -> prog_read es p wr -> prog_read es (If c t End p) (if_words cw tw ++ wr)
| read_else c t e p cw tw ew wr : condition_read c cw -> prog_read es t tw -> prog_read es e ew -> prog_read es p wr ->
    prog_read es (If c t e p) (if_words cw tw ++ [sign TElse "else"; sign TLbrace "{"] ++ ew ++ [sign TRbrace "}"] ++ wr)
| read_else_if c t c' t' e' p cw tw ew wr : condition_read c cw -> prog_read es t tw -> prog_read es (If c' t' e' End) ew -> prog_read es p wr ->
    prog_read es (If c t (If c' t' e' End) p) (if_words cw tw ++ sign TElse "else" :: ew ++ wr)
| read_switch n cs p cw wr : cases_read es cs cw -> NoDup (map (pattern 0x13) (labels cs)) -> lenN (labels cs) < 2 ^ 16 -> prog_read es p wr ->
    prog_read es (Switch n cs p) (switch_words n cw ++ wr)
with cases_read (es : list enum) : cases -> list word -> Prop :=
| cases_stop : cases_read es Stop []
| cases_block l b more lw bw mw : label_read es l lw -> prog_read es b bw -> cases_read es more mw ->
    cases_read es (Case l b more) (lw ++ [sign TColon ":"; sign TLbrace "{"] ++ bw ++ [sign TRbrace "}"] ++ mw)
| cases_single l b more lw bw mw : label_read es l lw -> prog_read es b bw -> single b -> cases_read es more mw ->
    cases_read es (Case l b more) (lw ++ [sign TColon ":"] ++ bw ++ mw).
Scheme prog_read_mut := Induction for prog_read Sort Prop with cases_read_mut := Induction for cases_read Sort Prop.
Combined Scheme read_ind from prog_read_mut, cases_read_mut.

(** A file: enumerations, then a packet, with byte-order decorators in front *)
Record source := { s_enums : list enum; s_orders : list bool; s_name : list N; s_body : prog }.
Definition source_read (k : source) (ws : list word) : Prop :=
  exists ew os bw, enums_read (s_enums k) ew /\ orders_read top_order_words (s_orders k) os /\ prog_read (s_enums k) (s_body k) bw /\
  ws = ew ++ os ++ [sign TPacket "packet"; (TIdentifier, s_name k); sign TLbrace "{"] ++ bw ++ [sign TRbrace "}"].

(** Names: of the fields, in all branches; and all that the program refers to *)
Fixpoint field_names (p : prog) : list (list N) :=
  match p with
  | End => []
  | Field f r => leaf_name f :: field_names r
  | If _ t e r => field_names t ++ field_names e ++ field_names r
  | Switch _ cs r => case_fields cs ++ field_names r
  end
with case_fields (cs : cases) : list (list N) :=
  match cs with Stop => [] | Case _ b more => field_names b ++ case_fields more end.
Definition leaf_names (f : leaf) : list (list N) :=
  match f with Plain f => [i_name f] | Computed c => names (c_expr c) ++ [c_name c] end.
Fixpoint prog_names (p : prog) : list (list N) :=
  match p with
  | End => []
  | Field f r => leaf_names f ++ prog_names r
  | If c t e r => names c ++ prog_names t ++ prog_names e ++ prog_names r
  | Switch n cs r => n :: case_names cs ++ prog_names r
  end
with case_names (cs : cases) : list (list N) :=
  match cs with Stop => [] | Case _ b more => prog_names b ++ case_names more end.
Definition source_names (k : source) : list (list N) := prog_names (s_body k) ++ [s_name k].
(** The file at [path] holds [k], in the words [toks].  No two fields share a name, no two types, and no enumeration has the name
    of a scalar type. *)
Definition holds_source (E : env) (path : list N) (k : source) (toks : list token) : Prop :=
  exists src ws, e_read E (e_canon E path) = Some src /\ lex src = Some toks /\ map word_of toks = ws ++ [(TEof, [])] /\
    source_read k ws /\ NoDup (field_names (s_body k)) /\ NoDup (s_name k :: map m_name (s_enums k)) /\
    Forall (fun e => ~ In (m_name e) (map (fun w => chars (snd w)) type_words)) (s_enums k).

(** Programs that the compiler's last pass, which removes unused names, always leaves alone (C42): fields, constants, ranges,
    enumerations and conditions with no literals but those below 256 other than 19, 23 and 25; no switches, no computed fields *)
Fixpoint unspoilt (e : expr) : Prop :=
  match e with
  | XInt v => (0 <= v < 256)%Z /\ ~ In v [19; 23; 25]%Z
  | XField _ => True
  | XBin _ a b => unspoilt a /\ unspoilt b
  | XUn _ a => unspoilt a
  | _ => False
  end.
Fixpoint tame (p : prog) : Prop :=
  match p with
  | End => True
  | Field (Plain _) r => tame r
  | If c t e r => unspoilt c /\ tame t /\ tame e /\ tame r
  | _ => False
  end.

(** ** Meaning *)

(** Is the value [v] one that the declaration admits *)
Definition admitted (f : item) (v : N) : bool :=
  let z := number (width (i_type f)) (type_signed (i_type f)) v in
  match i_members f with None => true | Some l => existsb (Z.eqb z) l end &&
  match i_range f with None => true | Some (lo, hi) => (lo <=? z)%Z && (z <=? hi)%Z end.
Definition truth_value (ty v : N) : bool := negb (ty =? 0x1A) || (v <=? 1).

(** Where processing stands: the byte order, the bytes behind and the bytes ahead *)
Record place := { order : endian; passed : list N; ahead : list N }.

Section Meaning.
  Context {H : Type} (host : H -> request -> H * reply) (id : list N -> N) (m : mode).
  (** Processing goes on from a place; stops with an error; or the machine's behaviour is undefined *)
  Inductive ending := Goes (x : place) (h : H) | Stops (e : err) (x : place) (h : H) | Breaks.

  (** A field: encoding asks the host for the value and writes it, unless it is constant; decoding reads a value and tells the
      host.  The byte order selected in front of a field is little endian behind it if its decorators ask for big endian (C46). *)
  Definition field_meaning (f : item) (x : place) (h : H) : ending :=
    let ty := i_type f in
    let n := N.to_nat (width ty) in
    let key := id (i_name f) in
    let o := if i_big f then BE else order x in
    let behind bs := {| order := if i_big f then LE else order x; passed := passed x ++ bs; ahead := skipn n (ahead x) |} in
    let finish v bs h := if admitted f v then Goes (behind bs) h else Stops EValidation (behind bs) h in
    let tell rq v bs := let (h1, r) := host h rq in if r_ok r then finish v bs h1 else Stops ECallback x h1 in
    if lenN (ahead x) <? width ty then Stops EOob x h
    else
      match m, i_const f with
      | Enc, Some c => finish (pattern ty c) (bytes_of o n (pattern ty c)) h
      | Enc, None =>
        let (h1, r) := host h (value_call key ty 0) in
        let v := answer (width ty) 0 r in
        if negb (r_ok r) then Stops ECallback x h1
        else if truth_value ty v then finish v (bytes_of o n v) h1
        else Stops EValidation x h1
      | Dec, c =>
        let bs := firstn n (ahead x) in
        let v := val_of o bs in
        match c with
        | Some c => if v =? pattern ty c then tell (ask key ty (cvar (width ty) v) HConst) v bs else Stops EValidation x h
        | None => if truth_value ty v then tell (value_call key ty v) v bs else Stops EValidation x h
        end
      end.

  (** A condition: the host is asked for the fields, from left to right *)
  Inductive cvalue := CVal (v : N) | CStop (e : err) | CBreak.
  Fixpoint condition (e : expr) (h : H) : H * cvalue :=
    match e with
    | XInt v => (h, CVal (pattern 0x13 v))
    | XField n => let (h1, r) := host h (ask (id n) 0x60 (cvar 8 0) HQuery) in (h1, if r_ok r then CVal (answer 8 0 r) else CStop ECallback)
    | XBin o a b =>
      match condition a h with
      | (h1, CVal x) =>
        match condition b h1 with
        | (h2, CVal y) => (h2, match ibin_val o x y with EVal v => CVal v | EZeroDiv => CStop EArith | EUndefined => CBreak end)
        | r => r
        end
      | r => r
      end
    | XUn o a =>
      match condition a h with
      | (h1, CVal x) => (h1, match iun_val o x with EVal v => CVal v | EZeroDiv => CStop EArith | EUndefined => CBreak end)
      | r => r
      end
    | _ => (h, CBreak)
    end.

  (** A computed field: the host is told the value of the expression; encoding writes it, decoding reads it and compares *)
  Definition computed_meaning (c : computed) (x : place) (h : H) : ending :=
    let ty := c_type c in
    let n := N.to_nat (width ty) in
    let o := if c_big c then BE else order x in
    let behind bs := {| order := if c_big c then LE else order x; passed := passed x ++ bs; ahead := skipn n (ahead x) |} in
    match condition (c_expr c) h with
    | (h1, CVal v) =>
      let (h2, r) := host h1 (ask (id (c_name c)) 0x78 (cvar 8 v) HStore) in
      if negb (r_ok r) then Stops ECallback x h2
      else if lenN (ahead x) <? width ty then Stops EOob x h2
      else
        match m with
        | Enc => Goes (behind (bytes_of o n v)) h2
        | Dec => let bs := firstn n (ahead x) in if val_of o bs =? v then Goes (behind bs) h2 else Stops EValidation x h2
        end
    | (h1, CStop e) => Stops e x h1
    | (_, CBreak) => Breaks
    end.
  Definition leaf_meaning (f : leaf) : place -> H -> ending :=
    match f with Plain f => field_meaning f | Computed c => computed_meaning c end.

  Definition andthen (r : ending) (k : place -> H -> ending) : ending := match r with Goes x h => k x h | r => r end.
  Fixpoint meaning (p : prog) (x : place) (h : H) : ending :=
    match p with
    | End => Goes x h
    | Field f r => andthen (leaf_meaning f x h) (meaning r)
    | If c t e r =>
      match condition c h with
      | (h1, CVal v) => andthen (if v =? 0 then meaning e x h1 else meaning t x h1) (meaning r)
      | (h1, CStop err) => Stops err x h1
      | (_, CBreak) => Breaks
      end
    | Switch n cs r =>
      let (h1, rp) := host h (ask (id n) 0x06 (cvar 8 0) HQuery) in
      if r_ok rp then andthen (selected cs (answer 8 0 rp) (Goes x h1) x h1) (meaning r) else Stops ECallback x h1
    end
  (** The case of the value [v]; if there is none, the default, the last of several; [d]: without either *)
  with selected (cs : cases) (v : N) (d : ending) (x : place) (h : H) : ending :=
    match cs with
    | Stop => d
    | Case (Some z) b more => if v =? pattern 0x13 z then meaning b x h else selected more v d x h
    | Case None b more => selected more v (meaning b x h) x h
    end.
End Meaning.
Arguments Goes {H}. Arguments Stops {H}. Arguments Breaks {H}.
Definition start (k : source) (data : list N) : place := {| order := if last (s_orders k) false then BE else LE; passed := []; ahead := data |}.

(** A run of the code [bc] on [data] does what [r] says: it ends without an error, or with that error, the buffer and the
    position being those of the place, and the host in that state; or its behaviour is undefined. *)
Definition ends_as {H} (host : H -> request -> H * reply) (lm : libm) (bc : list N) (m : mode) (data : list N) (h : H) (r : ending (H := H)) : Prop :=
  let ends e x h' := exists s' t n, (forall fuel, (n <= fuel)%nat -> run host lm bc fuel (init m data) h = (Done e s', h', t)) /\
    buf s' = passed x ++ ahead x /\ position s' = 8 * lenN (passed x) in
  match r with
  | Goes x h' => ends EOk x h'
  | Stops e x h' => ends e x h'
  | Breaks => exists u h' t n, forall fuel, (n <= fuel)%nat -> run host lm bc fuel (init m data) h = (Crash u, h', t)
  end.

(** ** Both ends *)

(** A host keeping values by key.  The sender answers all questions from them; the receiver keeps what it is told and answers
    questions about fields from what it has kept. *)
Definition store := N -> N.
Definition kept (s : store) (k v : N) : store := fun j => if j =? k then v else s j.
Definition answering (v : N) : reply := {| r_ok := true; r_val := Some v; r_str := None; r_bytes := [] |}.
Definition sender (s : store) (rq : request) : store * reply := (s, answering (s (rq_key rq))).
Definition receiver (s : store) (rq : request) : store * reply :=
  match rq_how rq, rq_pl rq with
  | HQuery, _ => (s, answering (s (rq_key rq)))
  | _, PInt _ v => (kept s (rq_key rq) v, {| r_ok := true; r_val := None; r_str := None; r_bytes := [] |})
  | _, _ => (s, {| r_ok := true; r_val := None; r_str := None; r_bytes := [] |})
  end.
(** The fields of the message with the values [s]: conditions and switches select them *)
Fixpoint chosen (id : list N -> N) (s : store) (p : prog) : list leaf :=
  match p with
  | End => []
  | Field f r => f :: chosen id s r
  | If c t e r => match snd (condition sender id c s) with CVal v => (if v =? 0 then chosen id s e else chosen id s t) ++ chosen id s r | _ => [] end
  | Switch n cs r => taken id s cs (s (id n) mod 2 ^ 64) [] ++ chosen id s r
  end
with taken (id : list N -> N) (s : store) (cs : cases) (v : N) (d : list leaf) : list leaf :=
  match cs with
  | Stop => d
  | Case (Some z) b more => if v =? pattern 0x13 z then chosen id s b else taken id s more v d
  | Case None b more => taken id s more v (chosen id s b)
  end.
(** Conditions, switches and computed fields are about fields in front of them *)
Fixpoint backward (known : list (list N)) (p : prog) : Prop :=
  match p with
  | End => True
  | Field f r => match f with Plain _ => True | Computed c => incl (names (c_expr c)) known end /\ backward (leaf_name f :: known) r
  | If c t e r => incl (names c) known /\ backward known t /\ backward known e /\ backward known r
  | Switch n cs r => In n known /\ backwards known cs /\ backward known r
  end
with backwards (known : list (list N)) (cs : cases) : Prop :=
  match cs with Stop => True | Case _ b more => backward known b /\ backwards known more end.
(** The value of a field is of its type, and the constant if it is constant; that of a computed field is what is computed *)
Definition proper (id : list N -> N) (s : store) (f : leaf) : Prop :=
  match f with
  | Plain f => s (id (i_name f)) < 2 ^ (8 * width (i_type f)) /\ forall c, i_const f = Some c -> s (id (i_name f)) = pattern (i_type f) c
  | Computed c => s (id (c_name c)) < 2 ^ (8 * width (c_type c)) /\ snd (condition sender id (c_expr c) s) = CVal (s (id (c_name c)))
  end.
Definition received (id : list N -> N) (s : store) (fs : list leaf) (t : store) : store :=
  fold_left (fun t f => kept t (id (leaf_name f)) (s (id (leaf_name f)))) fs t.
