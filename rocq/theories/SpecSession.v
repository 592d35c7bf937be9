(** What an editor gets to see of a schema while it is written: problems, definitions, proposals, an outline. *)
From Coq Require Import Strings.String ZArith.
From Verif Require Import Base ModelWord ModelFloat ModelTrans ModelVM ModelText ModelParse ModelSchema ModelJson ModelTool ModelLsp ModelDiag
  SpecText SpecDiag SpecMessage SpecSource SpecComplete SpecLsp.
From Verif Require SpecGrammar SpecFmt.
Local Open Scope string_scope.
Local Open Scope list_scope.
Local Open Scope N_scope.

(** The files, if the text were saved *)
Definition saved_as (E : env) (path src : list N) : env :=
  {| e_strtod := e_strtod E; e_read := fun q => if list_eq_dec N.eq_dec q path then Some src else e_read E q; e_canon := e_canon E |}.
(** The compiler makes an image of the file; it refuses it *)
Definition accepted (E : env) (path : list N) : Prop := exists fuel im, compile_file E fuel path = CImage im.
Definition refused (E : env) (path : list N) : Prop := exists fuel, compile_file E fuel path = CRefused.
(** A text of the document or of another file *)
Definition text_of (E : env) (path src file text : list N) : Prop := file = path /\ text = src \/ e_read E file = Some text.

(** A problem as the editor shows it: one character, where a token of a text starts *)
Definition position_of (line character : Z) : json := obj [("line", num line); ("character", num character)].
Definition problem (E : env) (path src : list N) (j : json) : Prop := exists file text ts t line character message,
  text_of E path src file text /\ tokens_of 0 text ts /\ In t ts /\ start_of text t = (line, character) /\
  j = obj [("range", obj [("start", position_of line character); ("end", position_of line (character + 1))]); ("severity", num 1);
           ("message", JStr message); ("source", str "concordia")].
(** None exactly for a text that the compiler accepts *)
Definition problems (E : env) (path src : list N) (j : json) : Prop := exists l, j = JArr l /\ Forall (problem E path src) l /\
  (l = [] <-> accepted (saved_as E path src) path) /\ (l <> [] <-> refused (saved_as E path src) path).

(** The identifier at the position *)
Definition name_at (src : list N) (line character : Z) (name : list N) : Prop := exists ts t,
  tokens_of 0 src ts /\ In t ts /\ tk t = TIdentifier /\ ttext t = name /\ fst (start_of src t) = line /\
  (snd (start_of src t) <= character <= snd (start_of src t) + Z.of_N (lenN name))%Z.
(** In a name, past its first character, and not behind an @ *)
Definition inside_name (src : list N) (line character : Z) (name : list N) : Prop := exists before t after,
  lex src = Some (before ++ t :: after) /\ tk t = TIdentifier /\ ttext t = name /\ (forall l x, before = l ++ [x] -> tk x <> TAt) /\
  fst (start_of src t) = line /\ (snd (start_of src t) < character <= snd (start_of src t) + Z.of_N (lenN name))%Z.
(** What the document and its imports define *)
Definition known (E : env) (path src : list N) (structs : list (list N)) (enums : list enum) : Prop := exists toks ws k,
  lex src = Some toks /\ map SpecGrammar.shown toks = ws ++ [SpecGrammar.mark TEof] /\
  SpecGrammar.file E path {| SpecGrammar.k_structs := []; SpecGrammar.k_enums := []; SpecGrammar.k_files := []; SpecGrammar.k_packets := 0; SpecGrammar.k_packed := false |} ws k /\
  structs = SpecGrammar.k_structs k /\ enums = SpecGrammar.k_enums k.

(** Going to a definition: nothing, the definition of the name at the position, or (for decorators) nowhere.  In a text the compiler
    accepts, every name of a structure or enumeration leads to a definition of it. *)
Definition leads (E : env) (path src : list N) (line character : Z) (j : json) : Prop :=
  (j = JNull \/ (exists name, name_at src line character name /\ In (64 :: name) decorator_words /\ j = where_is (file_uri (chars "built-in")) 0) \/
   exists name file text k l, name_at src line character name /\ text_of E path src file text /\ (k = TStruct \/ k = TEnum) /\
     defines text k name l /\ j = where_is (file_uri file) l) /\
  (accepted (saved_as E path src) path -> exists structs enums, known E path src structs enums /\ forall name, In name (structs ++ map m_name enums) ->
     inside_name src line character name -> exists file text k l, text_of E path src file text /\ (k = TStruct \/ k = TEnum) /\
       defines text k name l /\ j = where_is (file_uri file) l).

(** Hovering: the name, where it is defined (lines from 1 on), what is documented, and the members of an enumeration *)
Definition type_name (type : N) : string :=
  match type with
  | 0x10 => "u8" | 0x11 => "u16" | 0x12 => "u32" | 0x13 => "u64" | 0x14 => "i8" | 0x15 => "i16" | 0x16 => "i32" | 0x17 => "i64"
  | 0x20 => "bit_u" | 0x21 => "bit_i" | 0x22 => "bit_bool" | _ => "unknown"
  end.
Definition member_line (m : list N * Z) : list N := chars "- `" ++ fst m ++ chars "` = `" ++ decimal_z (snd m) ++ chars "`" ++ [10].
Definition members_shown (e : enum) : list N :=
  chars "Type: `" ++ chars (type_name (m_type e)) ++ chars "`" ++ [10; 10] ++ chars "Members:" ++ [10] ++ flat_map member_line (m_members e).
Definition hover (value : list N) : json := obj [("contents", obj [("kind", str "markdown"); ("value", JStr value)])].
Definition hover_line (name file : list N) (line : Z) : list N :=
  chars "**" ++ name ++ chars "**" ++ [10; 10] ++ chars "Defined in " ++ file ++ chars " on line " ++ decimal_z (line + 1) ++ chars ".".
Definition hovers (E : env) (path src : list N) (line character : Z) (j : json) : Prop :=
  (j = JNull \/ (exists name more, name_at src line character name /\ In (64 :: name) decorator_words /\ j = hover (hover_line name (chars "built-in") 0 ++ more)) \/
   exists name file text k l more, name_at src line character name /\ text_of E path src file text /\ (k = TStruct \/ k = TEnum) /\
     defines text k name l /\ j = hover (hover_line name file l ++ more)) /\
  (accepted (saved_as E path src) path -> exists structs enums, known E path src structs enums /\ forall name, In name (structs ++ map m_name enums) ->
     inside_name src line character name -> exists file text k l more, text_of E path src file text /\ (k = TStruct \/ k = TEnum) /\
       defines text k name l /\ j = hover (hover_line name file l ++ more) /\
       (~ In name structs -> exists e doc, In e enums /\ m_name e = name /\
          (Forall (fun m => lenN (member_line m) < 256) (m_members e) -> more = doc ++ [10; 10] ++ members_shown e))).

(** Formatting: an edit that replaces the whole text by one that compiles to the same *)
Definition reformats (E : env) (path src : list N) (j : json) : Prop := exists new, j = replace_to 999999 new /\
  (Forall (fun c => c <> 0 /\ c < 256) src -> SpecFmt.tidy SpecFmt.Code src = true ->
   forall fuel, compile_file (saved_as E path new) fuel path = compile_file (saved_as E path src) fuel path).

(** Proposals: those of C76, of the definitions of the document when the compiler accepts it *)
Definition proposal (o : list N * N) (j : json) : Prop := exists more,
  j = JObj ([(chars "label", JStr (fst o)); (chars "kind", num (Z.of_N (snd o)))] ++ more).
Definition proposes (E : env) (path src : list N) (line character : Z) (j : json) : Prop := exists l items,
  j = obj [("isIncomplete", JBool false); ("items", JArr items)] /\ Forall2 proposal l items /\
  forall front, cursor_at src front line character -> exists structs enums fields ts,
    tokens_of 0 src ts /\ proposed structs enums fields (in_front front ts) l /\ (forall s, ~ In s structs -> fields s = []) /\
    (forall s, In s structs -> exists file text n, text_of E path src file text /\ defines text TStruct s n) /\
    (forall e, In e enums -> exists file text n, text_of E path src file text /\ defines text TEnum (m_name e) n) /\
    (accepted (saved_as E path src) path -> known E path src structs enums).

(** The outline: names with their kinds, each where it is defined; all of them when the compiler accepts the text *)
Definition symbol (uri : list N) (s : list N * N * Z) (j : json) : Prop :=
  let '(name, kind, line) := s in j = obj [("name", JStr name); ("kind", num (Z.of_N kind)); ("location", where_is uri line)].
Definition outlines (E : env) (path src uri : list N) (j : json) : Prop := exists l items,
  j = JArr items /\ Forall2 (symbol uri) l items /\
  Forall (fun '(name, kind, line) => exists file text, text_of E path src file text /\
    (kind = 23 /\ defines text TStruct name line \/ kind = 10 /\ defines text TEnum name line)) l /\
  (accepted (saved_as E path src) path -> exists structs enums, known E path src structs enums /\
    map fst l = of_kind 23 structs ++ of_kind 10 (map m_name enums)).

(** ** The session *)
(** What the server sends for a message, given what came before *)
Definition publishes (E : env) (uri src : list N) (sent : list json) : Prop := exists j,
  sent = [notify "textDocument/publishDiagnostics" (obj [("uri", JStr uri); ("diagnostics", j)])] /\ problems E (uri_path uri) src j.
Definition reacts (V : server) (fs : files) (past : list message) (m : message) (sent : list json) : Prop :=
  let E := env_of (v_sys V) fs in
  let on (u : list N) (good : list N -> json -> Prop) (r : json) := match current_text V fs past u with Some t => good t r | None => r = JNull end in
  match m with
  | Opened u t | Changed u _ t => publishes E u t sent
  | Saved u => match file_text V fs u with Some t => publishes E u t sent | None => sent = [] end
  | Closed _ => sent = []
  | Ask id q => exists r, sent = [result_of id r] /\
    match q with
    | WhereIs u l c => on u (fun t => leads E (uri_path u) t l c) r
    | Complete u l c => on u (fun t => proposes E (uri_path u) t l c) r
    | Symbols u => on u (fun t => outlines E (uri_path u) t u) r
    | Hover u l c => on u (fun t => hovers E (uri_path u) t l c) r
    | Format u => on u (fun t => reformats E (uri_path u) t) r
    | Initialize => r = capabilities
    | Shutdown | Other _ => r = JNull
    end
  end.
Inductive goes (V : server) : (nat -> files) -> list message -> list message -> list json -> Prop :=
| go_end time past : goes V time past [] []
| go_on time past m ms sent more : reacts V (time O) past m sent -> goes V (fun n => time (S n)) (m :: past) ms more ->
    goes V time past (m :: ms) (sent ++ more).

(** ** What is asked of the texts: the analysis is defined and finds fewer than 1024 errors, the imports of the document do not come back to
    it, the path is canonical, and positions can be counted in lines (no string literal spans lines) *)
Definition sound (fuel : nat) (E : env) (path src : list N) : Prop := exists ds opened,
  diagnose E fuel path src = Shown ds opened /\ (List.length ds < 1024)%nat /\ ~ In path opened /\ e_canon E path = path /\
  plain src /\ forall f text, e_read E f = Some text -> plain text.
Definition text_asked (V : server) (fs : files) (past : list message) (m : message) : option (list N * list N) :=
  let at_uri (u : list N) (o : option (list N)) := option_map (pair (uri_path u)) o in
  match m with
  | Opened u t | Changed u _ t => at_uri u (Some t)
  | Saved u => at_uri u (file_text V fs u)
  | Ask _ (WhereIs u _ _) | Ask _ (Hover u _ _) | Ask _ (Complete u _ _) | Ask _ (Symbols u) => at_uri u (current_text V fs past u)
  | _ => None
  end.
Fixpoint all_sound (V : server) (fuel : nat) (time : nat -> files) (past ms : list message) : Prop :=
  match ms with
  | [] => True
  | m :: r => (forall path src, text_asked V (time O) past m = Some (path, src) -> sound fuel (env_of (v_sys V) (time O)) path src) /\
              all_sound V fuel (fun n => time (S n)) (m :: past) r
  end.
