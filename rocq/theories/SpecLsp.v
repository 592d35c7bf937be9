(** The language server as its protocol has it: framed messages, and a client's questions about the texts it has opened. *)
From Coq Require Import Strings.String.
From Verif Require Import Base ModelWord ModelFloat ModelVM ModelImage ModelText ModelFmt ModelNames ModelParse ModelSchema ModelJson ModelTool ModelLsp.

(** ** Framing: header lines with a Content-Length among them, an empty line, the text *)
Definition other_header (l : list N) : Prop :=
  Forall (fun c => c <> 0 /\ c <> 10 /\ c < 256) l /\ l <> [] /\ lenN l <= 1021 /\ firstn 16 l <> chars "Content-Length: "%string.
Definition crlf : list N := [13; 10].
Definition headers (hs : list (list N)) : list N := flat_map (fun l => l ++ crlf) hs.
(** The value of decimal digits; digits that say [n], on a line of at most 1023 bytes *)
Definition decimal_value (l : list N) : N := fold_left (fun v c => 10 * v + (c - 48)) l 0.
Definition says (digits : list N) (n : N) : Prop :=
  Forall (fun c => 48 <= c <= 57) digits /\ digits <> [] /\ lenN digits <= 1005 /\ decimal_value digits = n.
Definition framed (before : list (list N)) (digits : list N) (after : list (list N)) (text : list N) : list N :=
  headers before ++ chars "Content-Length: "%string ++ digits ++ crlf ++ headers after ++ crlf ++ text.
(** A body: no NUL, not empty, shorter than 2 GB *)
Definition body (l : list N) : Prop := Forall (fun c => c <> 0 /\ c < 256) l /\ 0 < lenN l < 2 ^ 31.
(** [bytes] is a message with this text *)
Definition carries (bytes text : list N) : Prop := exists before digits after,
  Forall other_header before /\ Forall other_header after /\ body text /\ says digits (lenN text) /\ bytes = framed before digits after text.

(** ** The conversation *)
Inductive question :=
| Initialize | Shutdown
| WhereIs (uri : list N) (line character : Z) | Hover (uri : list N) (line character : Z) | Complete (uri : list N) (line character : Z)
| Format (uri : list N) | Symbols (uri : list N)
| Other (method : list N).
Inductive message :=
| Ask (id : json) (q : question)
| Opened (uri text : list N) | Changed (uri : list N) (earlier : list (list N)) (text : list N) | Saved (uri : list N) | Closed (uri : list N).

(** The messages as the protocol writes them *)
Definition about (uri : list N) : json := obj [("textDocument", obj [("uri", JStr uri)])]%string.
Definition about_at (uri : list N) (line character : Z) : json :=
  obj [("textDocument", obj [("uri", JStr uri)]); ("position", obj [("line", num line); ("character", num character)])]%string.
Definition method_of (q : question) : list N :=
  match q with
  | Initialize => chars "initialize"%string | Shutdown => chars "shutdown"%string
  | WhereIs _ _ _ => chars "textDocument/definition"%string | Hover _ _ _ => chars "textDocument/hover"%string
  | Complete _ _ _ => chars "textDocument/completion"%string | Format _ => chars "textDocument/formatting"%string
  | Symbols _ => chars "textDocument/documentSymbol"%string | Other m => m
  end%string.
Definition params_of (q : question) : json :=
  match q with
  | Initialize | Shutdown | Other _ => JNull
  | WhereIs u l c | Hover u l c | Complete u l c => about_at u l c
  | Format u | Symbols u => about u
  end.
Definition notify (m : string) (p : json) : json := obj [("jsonrpc", str "2.0"%string); ("method", str m); ("params", p)]%string.
Definition json_of (m : message) : json :=
  match m with
  | Ask id q => obj [("jsonrpc", str "2.0"%string); ("id", id); ("method", JStr (method_of q)); ("params", params_of q)]%string
  | Opened u t => notify "textDocument/didOpen"%string (obj [("textDocument", obj [("uri", JStr u); ("text", JStr t)])]%string)
  | Changed u ts t => notify "textDocument/didChange"%string
      (obj [("textDocument", obj [("uri", JStr u)]); ("contentChanges", JArr (map (fun x => obj [("text", JStr x)]) (ts ++ [t])))]%string)
  | Saved u => notify "textDocument/didSave"%string (about u)
  | Closed u => notify "textDocument/didClose"%string (about u)
  end.

(** The text a document has for the client: as last opened or changed, unless it is closed again; otherwise the file's *)
Fixpoint open_text (past : list message) (uri : list N) : option (list N) :=   (* last message first *)
  match past with
  | [] => None
  | Opened u t :: r | Changed u _ t :: r => if list_eq_dec N.eq_dec u uri then Some t else open_text r uri
  | Closed u :: r => if list_eq_dec N.eq_dec u uri then None else open_text r uri
  | _ :: r => open_text r uri
  end.
Definition file_text (V : server) (fs : files) (uri : list N) : option (list N) := read_text (v_sys V) fs (uri_path uri).
Definition current_text (V : server) (fs : files) (past : list message) (uri : list N) : option (list N) :=
  match open_text past uri with Some t => Some t | None => file_text V fs uri end.

(** All of the text of a hover *)
Definition hover_full (f : found) : list N :=
  chars "**"%string ++ d_name f ++ chars "**"%string ++ [10; 10] ++ chars "Defined in "%string ++ match d_file f with Some p => p | None => chars "current file"%string end ++
  chars " on line "%string ++ decimal_z (d_line f + 1) ++ chars "."%string ++
  match d_doc f with Some d => [10; 10] ++ d | None => [] end ++ match d_details f with Some d => [10; 10] ++ d | None => [] end.
Definition capabilities : json :=
  obj [("capabilities", obj [("definitionProvider", JBool true); ("hoverProvider", JBool true); ("documentSymbolProvider", JBool true);
    ("documentFormattingProvider", JBool true); ("completionProvider", obj [("resolveProvider", JBool false); ("triggerCharacters", str "."%string)]);
    ("textDocumentSync", num 1)])]%string.
(** Edits of a whole text, places and results *)
Definition replace_to (last : Z) (text : list N) : json :=
  JArr [obj [("range", obj [("start", obj [("line", num 0); ("character", num 0)]); ("end", obj [("line", num last); ("character", num 0)])]); ("newText", JStr text)]%string].
Definition where_is (uri : list N) (line : Z) : json :=
  let p := obj [("line", num line); ("character", num 0)]%string in obj [("uri", JStr uri); ("range", obj [("start", p); ("end", p)])]%string.
Definition result_of (id r : json) : json := obj [("jsonrpc", str "2.0"%string); ("id", id); ("result", r)]%string.
Definition diagnosed (V : server) (fs : files) (uri text : list N) : json :=
  notify "textDocument/publishDiagnostics"%string (obj [("uri", JStr uri); ("diagnostics", v_diagnostics V fs (uri_path uri) text)]%string).
(** The answer to a question: about the current text *)
Definition answer_to (V : server) (fs : files) (past : list message) (q : question) : json :=
  let with_text (u : list N) (k : list N -> json) := match current_text V fs past u with Some t => k t | None => JNull end in
  match q with
  | Initialize => capabilities
  | Shutdown | Other _ => JNull
  | WhereIs u l c => with_text u (fun t => match v_find V fs (uri_path u) t l c with Some f => where_is (match d_file f with Some p => file_uri p | None => u end) (d_line f) | None => JNull end)
  | Hover u l c => with_text u (fun t => match v_find V fs (uri_path u) t l c with
      | Some f => obj [("contents", obj [("kind", str "markdown"%string); ("value", JStr (hover_full f))])]%string
      | None => JNull end)
  | Complete u l c => with_text u (fun t => v_complete V fs (uri_path u) t l c)
  | Format u => with_text u (fun t => replace_to 999999 (match format_source t with Some o => cstr o | None => t end))
  | Symbols u => with_text u (fun t => v_symbols V fs (uri_path u) t u)
  end.
(** What the server sends for a message: one response to a question, with its identifier; the diagnostics of a text that has changed *)
Definition sends (V : server) (fs : files) (past : list message) (m : message) : list json :=
  match m with
  | Ask id q => [result_of id (answer_to V fs past q)]
  | Opened u t | Changed u _ t => [diagnosed V fs u t]
  | Saved u => match file_text V fs u with Some t => [diagnosed V fs u t] | None => [] end
  | Closed _ => []
  end.
Fixpoint conversation (V : server) (time : nat -> files) (past ms : list message) : list json :=
  match ms with
  | [] => []
  | m :: r => sends V (time O) past m ++ conversation V (fun n => time (S n)) (m :: past) r
  end.

(** ** What is asked of the client and its files *)
(** Positions that an int holds; a file is formatted and its symbols listed when it is saved; hovers are not long *)
Definition asked_well (V : server) (fs : files) (past : list message) (m : message) : Prop :=
  match m with
  | Ask _ q =>
    match q with
    | WhereIs u l c | Complete u l c => (0 <= l < 2 ^ 31)%Z /\ (0 <= c < 2 ^ 31)%Z
    | Hover u l c => (0 <= l < 2 ^ 31)%Z /\ (0 <= c < 2 ^ 31)%Z /\
        forall t f, current_text V fs past u = Some t -> v_find V fs (uri_path u) t l c = Some f -> lenN (hover_full f) < 4096
    | Format u | Symbols u => current_text V fs past u = file_text V fs u
    | Other m => False
    | _ => True
    end
  | Closed u => open_text past u = None
  | _ => True
  end.
Fixpoint all_well (V : server) (time : nat -> files) (past ms : list message) : Prop :=
  match ms with
  | [] => True
  | m :: r => asked_well V (time O) past m /\ all_well V (fun n => time (S n)) (m :: past) r
  end.

(** The bytes of a message, and of the notification that ends the server *)
Definition spoken (V : server) (m : message) (bytes : list N) : Prop := exists text, carries bytes text /\ s_parse (v_sys V) text = Some (json_of m).
Definition farewell (V : server) (bytes : list N) : Prop :=
  exists text, carries bytes text /\ s_parse (v_sys V) text = Some (obj [("jsonrpc", str "2.0"%string); ("method", str "exit"%string)]%string).

(** ** File URIs *)
Definition hex_char (v c : N) : Prop :=
  (v < 10 /\ c = 48 + v) \/ (10 <= v < 16 /\ (c = 55 + v \/ c = 87 + v)).
(** [u] spells [p]: every byte as itself (except the percent sign) or as % and two hexadecimal digits *)
Inductive spells : list N -> list N -> Prop :=
| sp_nil : spells [] []
| sp_char c u p : c <> 37 -> spells u p -> spells (c :: u) (c :: p)
| sp_escape a b x y u p : hex_char x a -> hex_char y b -> spells u p -> spells (37 :: a :: b :: u) (16 * x + y :: p).

(** A path that names a drive, as /C:/x *)
Definition drive (p : list N) : Prop := exists a r, p = 47 :: a :: 58 :: r /\ (65 <= a <= 90 \/ 97 <= a <= 122).

(** ** Edits: a text with what lies before the start of line [n] replaced is the replacement and [from_line n] of it *)
Fixpoint from_line (n : nat) (l : list N) : list N :=
  match n, l with
  | O, _ => l
  | _, [] => []
  | S n', c :: r => if c =? 10 then from_line n' r else from_line n r
  end.
Definition newlines (l : list N) : N := lenN (filter (N.eqb 10) l).
