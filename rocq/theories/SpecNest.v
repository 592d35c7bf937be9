(** Schemas with structures: how they are written, the messages they stand for, and the conversation with the host. *)
From Coq Require Import Strings.String.
From Verif Require Import Base SpecBytes SpecVM ModelText SpecText ModelVM ModelTrans ModelParse SpecParse SpecNames SpecPacket SpecMessage.

(** ** Members of structures and packets *)

(** A plain field, or a field whose type is a structure: the byte-order decorators in front, how many, the name of the field and
    the members of the structure *)
Inductive member := Flat (f : field) | Nest (os : list bool) (x : extent) (n : list N) (b : list member).
(** A structure: its name and its members *)
Definition structure := (list N * list member)%type.
Record schema := { sc_structs : list structure; sc_orders : list bool; sc_name : list N; sc_members : list member }.

(** The name of a member; inside a structure that is the field [s], names start with "s." *)
Definition member_name (m : member) : list N := match m with Flat f => f_name f | Nest _ _ n _ => n end.
Definition inside (pre n : list N) : list N := pre ++ n ++ chars ".".
(** All names of a member, written out, when it stands at [pre] *)
Fixpoint member_names (pre : list N) (m : member) : list (list N) :=
  match m with
  | Flat f => [pre ++ f_name f]
  | Nest _ _ n b => (pre ++ n) :: flat_map (member_names (inside pre n)) b
  end.
(** The names of the packet, and those that appear while it is compiled *)
Definition schema_names (k : schema) : list (list N) := flat_map (member_names []) (sc_members k) ++ [sc_name k].
Definition all_names (k : schema) : list (list N) := flat_map (fun d => flat_map (member_names []) (snd d)) (sc_structs k) ++ schema_names k.

(** ** Words *)
Inductive extent_read : extent -> list word -> Prop :=
| ext_one : extent_read One []
| ext_fixed d n : literal d n -> n < 2 ^ 32 -> extent_read (Fixed n) [sign TLbracket "["; (TNumber, d); sign TRbracket "]"]
| ext_counted w c : In (w, c) counter_words -> extent_read (Counted w) [sign TLbracket "["; sign TRbracket "]"; ident "prefix"; ident c].
(** A member, when the structures [env] are known *)
Inductive member_read (env : list structure) : member -> list word -> Prop :=
| flat_read f ws : field_read f ws -> member_read env (Flat f) ws
| nest_read os o x n b s w : orders_read order_words os o -> In (s, b) env -> extent_read x w ->
    member_read env (Nest os x n b) (o ++ [(TIdentifier, s); (TIdentifier, n)] ++ w ++ [sign TSemicolon ";"]).
Inductive members_read (env : list structure) : list member -> list word -> Prop :=
| members_none : members_read env [] []
| members_more m l ws wr : member_read env m ws -> members_read env l wr -> members_read env (m :: l) (ws ++ wr).
(** Structure definitions, one after another, each using those before it; a semicolon may follow. No two structures and no two
    members of one share a name, and no structure has the name of a type. *)
Definition type_names : list (list N) := chars "string" :: map (fun x => chars (snd x)) type_words.
Inductive structs_read : list structure -> list structure -> list word -> Prop :=
| structs_none env : structs_read env [] []
| structs_more env s b l ws sc wr : members_read env b ws -> ~ In s (map fst env) -> ~ In s type_names -> NoDup (map member_name b) ->
    (sc = [] \/ sc = [sign TSemicolon ";"]) -> structs_read (env ++ [(s, b)]) l wr ->
    structs_read env ((s, b) :: l) ([sign TStruct "struct"; (TIdentifier, s); sign TLbrace "{"] ++ ws ++ [sign TRbrace "}"] ++ sc ++ wr).
Definition schema_read (k : schema) (ws : list word) : Prop :=
  exists sw os ms, structs_read [] (sc_structs k) sw /\ orders_read top_order_words (sc_orders k) os /\ members_read (sc_structs k) (sc_members k) ms /\
  ~ In (sc_name k) (map fst (sc_structs k)) /\ NoDup (map member_name (sc_members k)) /\
  ws = sw ++ os ++ [sign TPacket "packet"; (TIdentifier, sc_name k); sign TLbrace "{"] ++ ms ++ [sign TRbrace "}"].
(** The file at [path] holds the schema [k], in the words [toks] *)
Definition holds_schema (E : env) (path : list N) (k : schema) (toks : list token) : Prop :=
  exists src ws, e_read E (e_canon E path) = Some src /\ lex src = Some toks /\ map word_of toks = ws ++ [(TEof, [])] /\ schema_read k ws.

(** ** Values and their bytes *)

(** The value of a plain field, or a list of groups of values: one group for every copy of the structure *)
Inductive tree := Datum (d : datum) | Groups (gs : list (list tree)).

(** Bytes of one thing after another. The byte order at hand is passed on, because a field marked big-endian leaves little-endian
    order behind. *)
Section Chain.
  Context {A B : Type} (f : A -> B -> endian -> list N * endian) (g : B -> endian -> list N * endian).
  Fixpoint chain (l : list B) (o : endian) : list N * endian :=
    match l with
    | [] => ([], o)
    | b :: l => let (x, o) := g b o in let (y, o) := chain l o in (x ++ y, o)
    end.
  Fixpoint chain2 (k : list A) (l : list B) (o : endian) : list N * endian :=
    match k, l with
    | a :: k, b :: l => let (x, o) := f a b o in let (y, o) := chain2 k l o in (x ++ y, o)
    | _, _ => ([], o)
    end.
End Chain.
(** A counter in front of the groups *)
Definition extent_bytes (o : endian) (x : extent) (c : N) : list N := match x with Counted w => bytes_of o (N.to_nat w) c | _ => [] end.
(** The bytes of a member that starts in byte order [o], and the byte order afterwards *)
Fixpoint member_bytes (m : member) (t : tree) (o : endian) : list N * endian :=
  match m, t with
  | Flat f, Datum d => if f_big f then (datum_bytes BE (f_content f) d, LE) else (datum_bytes o (f_content f) d, o)
  | Nest os x _ b, Groups gs =>
    let big := last os false in
    let o1 := if big then BE else o in
    let (y, o2) := chain (fun g => chain2 member_bytes b g) gs o1 in
    (extent_bytes o1 x (lenN gs) ++ y, if big then LE else o2)
  | _, _ => ([], o)
  end.
Definition members_bytes : list member -> list tree -> endian -> list N * endian := chain2 member_bytes.
Definition groups_bytes (b : list member) : list (list tree) -> endian -> list N * endian := chain (members_bytes b).
(** The message *)
Definition schema_order (k : schema) : endian := if last (sc_orders k) false then BE else LE.
Definition message (k : schema) (ts : list tree) : list N := fst (members_bytes (sc_members k) ts (schema_order k)).

(** Values that members can have *)
Section Every.
  Context {A B : Type} (f : A -> B -> Prop) (g : B -> Prop).
  Fixpoint every (l : list B) : Prop := match l with [] => True | b :: l => g b /\ every l end.
  Fixpoint every2 (k : list A) (l : list B) : Prop :=
    match k, l with
    | [], [] => True
    | a :: k, b :: l => f a b /\ every2 k l
    | _, _ => False
    end.
End Every.
Definition extent_ok (x : extent) (c : N) : Prop :=
  match x with One => c = 1 | Fixed n => c = n /\ n < 2 ^ 32 - 1 | Counted w => c < 2 ^ (8 * w) /\ c < 2 ^ 32 - 1 end.
Fixpoint tree_ok (m : member) (t : tree) : Prop :=
  match m, t with
  | Flat f, Datum d => datum_ok (f_content f) d
  | Nest _ x _ b, Groups gs => extent_ok x (lenN gs) /\ every (fun g => every2 tree_ok b g) gs
  | _, _ => False
  end.
(** Skipping an empty array looks for its end byte by byte. It takes the numbers of names, and the numbers in the instructions of
    the elements, for instructions: with more than 52 names, or where such a number has one of these bytes, it can go wrong. *)
Definition quiet (l : list N) : Prop := Forall (fun b => ~ In b [0x34; 0x35; 0x36; 0x37; 0x38; 0x3A; 0x3B]) l.
Definition quiet_extent (x : extent) : Prop := match x with Fixed n => quiet (bytes_of LE 4 n) | _ => True end.
Fixpoint quiet_member (m : member) : Prop :=
  match m with
  | Flat f => match f_content f with Scalar _ x => quiet_extent x | Text max => quiet (bytes_of LE 2 max) | CountedText _ => True end
  | Nest _ x _ b => quiet_extent x /\ every quiet_member b
  end.
Fixpoint tree_skips (names : N) (m : member) (t : tree) : Prop :=
  match m, t with
  | Flat _, Datum d => d = Values [] -> names <= 52
  | Nest _ _ _ b, Groups gs => (gs = [] -> names <= 52 /\ every quiet_member b) /\ every (fun g => every2 (tree_skips names) b g) gs
  | _, _ => True
  end.
(** Arrays within arrays *)
Definition extent_depth (x : extent) : N := match x with One => 0 | _ => 1 end.
Fixpoint depth (m : member) : N :=
  match m with
  | Flat f => match f_content f with Scalar _ x => extent_depth x | _ => 0 end
  | Nest _ x _ b => extent_depth x + fold_right N.max 0 (map depth b)
  end.

(** ** Conversations *)
Definition enter_call (k : N) : request := ask k 0x03 PNone HNote.
Definition leave_call : request := ask 0 0x04 PNone HNote.
(** A plain field: the host gives the value (encoding) or is told it (decoding) *)
Definition says (m : mode) (k pos : N) (old : list N) (c : content) (d : datum) (t : list event) : Prop :=
  match m with Enc => gives k pos old c d t | Dec => told k pos c d t end.
(** The number of copies: the host knows it when encoding, and may only leave it as it is when decoding *)
Definition counts (m : mode) (k : N) (x : extent) (c : N) (t : list event) : Prop :=
  match x with
  | One => t = []
  | Fixed n => exists r, r_ok r = true /\ answer 4 n r = n /\ t = [(ask k 0x34 (cvar 4 n) HCount, r)]
  | Counted w => let v := match m with Enc => 0 | Dec => c end in
      exists r, r_ok r = true /\ answer w v r = c /\ t = [(ask k (array_op w) (cvar w v) HCount, r)]
  end.
(** The end of an array is announced, unless it is empty *)
Definition ends (x : extent) (c : N) (t : list event) : Prop :=
  match x with
  | One => t = []
  | _ => if c =? 0 then t = [] else exists r, r_ok r = true /\ t = [(end_call, r)]
  end.
Definition extent_size (x : extent) : N := match x with Counted w => w | _ => 0 end.
(** What is said about a member that stands at [pre], from byte [pos] of the buffer on, which holds [old] from there on; [z] bytes
    are used *)
Inductive said (m : mode) (id : list N -> N) : list N -> N -> list N -> member -> tree -> N -> list event -> Prop :=
| said_flat pre pos old f d t : says m (id (pre ++ f_name f)) pos old (f_content f) d t ->
    said m id pre pos old (Flat f) (Datum d) (size (f_content f) d) t
| said_nest pre pos old os x n b gs z t1 t2 t3 : counts m (id (pre ++ n)) x (lenN gs) t1 ->
    said_groups m id pre (pos + extent_size x) (skipn (N.to_nat (extent_size x)) old) n b gs z t2 -> ends x (lenN gs) t3 ->
    said m id pre pos old (Nest os x n b) (Groups gs) (extent_size x + z) (t1 ++ t2 ++ t3)
with said_groups (m : mode) (id : list N -> N) : list N -> N -> list N -> list N -> list member -> list (list tree) -> N -> list event -> Prop :=
| said_no_group pre pos old n b : said_groups m id pre pos old n b [] 0 []
| said_group pre pos old n b g gs z1 z2 t1 t2 r r' : r_ok r = true -> said_members m id (inside pre n) pos old b g z1 t1 -> r_ok r' = true ->
    said_groups m id pre (pos + z1) (skipn (N.to_nat z1) old) n b gs z2 t2 ->
    said_groups m id pre pos old n b (g :: gs) (z1 + z2) ((enter_call (id (pre ++ n)), r) :: t1 ++ (leave_call, r') :: t2)
with said_members (m : mode) (id : list N -> N) : list N -> N -> list N -> list member -> list tree -> N -> list event -> Prop :=
| said_none pre pos old : said_members m id pre pos old [] [] 0 []
| said_more pre pos old a b d ds z1 z2 t1 t2 : said m id pre pos old a d z1 t1 ->
    said_members m id pre (pos + z1) (skipn (N.to_nat z1) old) b ds z2 t2 ->
    said_members m id pre pos old (a :: b) (d :: ds) (z1 + z2) (t1 ++ t2).

(** ** Instructions, given the numbers of the names *)
Definition marked (big : bool) (l : list instr) : list instr := if big then [ins 0x02 [] []] ++ l ++ [ins 0x01 [] []] else l.
Definition repeated (x : extent) (k : N) (l : list instr) : list instr :=
  match x with
  | One => l
  | Fixed n => [ins 0x34 [k] (bytes_of LE 4 n)] ++ l ++ [ins 0x38 [] []]
  | Counted w => [ins (array_op w) [k] []] ++ l ++ [ins 0x38 [] []]
  end.
Fixpoint member_instrs (id : list N -> N) (pre : list N) (m : member) : list instr :=
  match m with
  | Flat f => marked (f_big f) (content_instrs (f_content f) (id (pre ++ f_name f)))
  | Nest os x n b => let k := id (pre ++ n) in
      marked (last os false) (repeated x k ([ins 0x03 [k] []] ++ flat_map (member_instrs id (inside pre n)) b ++ [ins 0x04 [] []]))
  end.
Definition schema_instrs (id : list N -> N) (k : schema) : list instr :=
  map (fun b : bool => ins (if b then 0x02 else 0x01) [] []) (sc_orders k) ++
  ins 0x07 [id (sc_name k)] [] :: flat_map (member_instrs id []) (sc_members k).
