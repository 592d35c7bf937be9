(** The language server: src/cli/cmd_lsp.c.

    Modelled: the framing of messages, the loop, the store of open documents, file URIs, and each handler's answer, as JSON trees.
    Not modelled: what the analysis of a schema finds (the parser of [ModelParse] with positions and comments): diagnostics, symbols,
    definitions and completions are functions of the path and the text, part of [server].  Memory allocation does not fail, except for
    sizes no memory has.  JSON text is the cJSON library's, as in [ModelTool]. *)
From Coq Require Import Strings.String.
From Verif Require Import Base ModelWord ModelFloat ModelVM ModelImage ModelText ModelFmt ModelNames ModelParse ModelSchema ModelJson ModelTool.

(** Undefined behaviour: a null pointer, a write outside a buffer, atoi out of range; and the model's fuel *)
Inductive fault := NullPointer | Overrun | OutOfRange | NoFuel.
Inductive got (A : Type) := Got (a : A) | Bad (f : fault).
Arguments Got {A} a. Arguments Bad {A} f.
Definition next {A B} (x : got A) (k : A -> got B) : got B := match x with Got a => k a | Bad f => Bad f end.
Notation "'let?' x := a 'in' b" := (next a (fun x => b)) (at level 200, x pattern, a at level 100, b at level 200, right associativity).

(** ** Framing *)

(** Decimal digits, as %zu and %d print them *)
Fixpoint digits_of (fuel : nat) (n : N) : list N :=
  match fuel with
  | O => []
  | S f => if n <? 10 then [48 + n] else digits_of f (n / 10) ++ [48 + n mod 10]
  end.
Definition decimal (n : N) : list N := digits_of (S (N.size_nat n)) n.
Definition decimal_z (z : Z) : list N := if (z <? 0)%Z then 45 :: decimal (Z.to_N (- z)) else decimal (Z.to_N z).

(** atoi: white space, a sign, digits *)
Fixpoint digits_value (l : list N) (acc : N) : N :=
  match l with
  | c :: r => if (48 <=? c) && (c <=? 57) then digits_value r (acc * 10 + (c - 48)) else acc
  | [] => acc
  end.
Fixpoint no_space (l : list N) : list N :=
  match l with
  | c :: r => if (c =? 32) || ((9 <=? c) && (c <=? 13)) then no_space r else l
  | [] => []
  end.
Definition atoi (l : list N) : got Z :=
  let z := match no_space l with
           | 45 :: r => (- Z.of_N (digits_value r 0))%Z
           | 43 :: r => Z.of_N (digits_value r 0)
           | r => Z.of_N (digits_value r 0)
           end in
  if ((int_min <=? z) && (z <=? int_max))%Z then Got z else Bad OutOfRange.

Definition content_length : list N := chars "Content-Length: "%string.
(** send_json, cmd_lsp.c:60-68 *)
Definition send_text (l : list N) : list N := content_length ++ decimal (lenN l) ++ [13; 10; 13; 10] ++ l.

(** fgets of at most [n] bytes *)
Fixpoint take_line (n : nat) (inp : list N) : list N * list N :=
  match n, inp with
  | O, _ => ([], inp)
  | _, [] => ([], [])
  | S n, c :: r => if c =? 10 then ([c], r) else let (a, b) := take_line n r in (c :: a, b)
  end.
(** The header lines, cmd_lsp.c:72-85: the length and what follows; None at the end of the input.  A length is a size_t *)
Fixpoint read_header (fuel : nat) (len : N) (inp : list N) : got (option (N * list N)) :=
  match fuel with
  | O => Bad NoFuel
  | S fuel =>
    match inp with
    | [] => Got None
    | _ =>
      let (line, rest) := take_line 1023 inp in
      if list_eq_dec N.eq_dec (firstn 16 line) content_length then
        let? z := atoi (skipn 16 line) in
        read_header fuel (if (z <? 0)%Z then Z.to_N (2 ^ 64 + z) else Z.to_N z) rest
      else if list_eq_dec N.eq_dec (cstr line) [13; 10] then Got (Some (len, rest))
      else if list_eq_dec N.eq_dec (cstr line) [10] then Got (Some (len, rest))
      else read_header fuel len rest
    end
  end.
(** read_json, cmd_lsp.c:70-96: the body as a C string and the rest of the input; None if NULL is returned before parsing.  [malloc0]: malloc(0)
    is not NULL; a negative length is a size that malloc refuses, except that -1 asks for 0 bytes *)
Definition read_body (malloc0 : bool) (inp : list N) : got (option (list N * list N)) :=
  let? h := read_header (S (length inp)) 0 inp in
  match h with
  | None => Got None
  | Some (len, rest) =>
    if len =? 0 then Got None
    else if len =? 2 ^ 64 - 1 then if malloc0 then Bad Overrun else Got None
    else if 2 ^ 63 <=? len then Got None
    else Got (Some (cstr (firstn (N.to_nat len) rest), skipn (N.to_nat len) rest))
  end.

(** ** File URIs *)

Definition is_xdigit (c : N) : bool := ((48 <=? c) && (c <=? 57)) || ((65 <=? c) && (c <=? 70)) || ((97 <=? c) && (c <=? 102)).
Definition is_alpha (c : N) : bool := ((65 <=? c) && (c <=? 90)) || ((97 <=? c) && (c <=? 122)).
(** cmd_lsp.c:368-373 *)
Definition xvalue (c : N) : N :=
  let c := if 97 <=? c then c - 32 else c in if 65 <=? c then c - 55 else c - 48.
(** url_decode, cmd_lsp.c:362-381 *)
Fixpoint url_decode (l : list N) : list N :=
  match l with
  | [] => []
  | 37 :: ((a :: b :: r) as t) => if is_xdigit a && is_xdigit b then 16 * xvalue a + xvalue b :: url_decode r else 37 :: url_decode t
  | c :: r => c :: url_decode r
  end.
(** file_uri_to_path, cmd_lsp.c:383-402: the path as a C string *)
Definition uri_path (uri : list N) : list N :=
  let raw := if list_eq_dec N.eq_dec (firstn 7 uri) (chars "file://"%string) then skipn 7 uri else uri in
  let d := cstr (url_decode raw) in
  match d with
  | 47 :: ((a :: 58 :: _) as t) => if is_alpha a then t else d
  | _ => d
  end.

(** ** Documents, cmd_lsp.c:117-142; opened first, first *)
Definition docs := list (list N * list N).
Fixpoint doc_update (uri text : list N) (l : docs) : docs :=
  match l with
  | [] => [(uri, text)]
  | (u, t) :: r => if list_eq_dec N.eq_dec u uri then (u, text) :: r else (u, t) :: doc_update uri text r
  end.
Fixpoint doc_get (uri : list N) (l : docs) : option (list N) :=
  match l with
  | [] => None
  | (u, t) :: r => if list_eq_dec N.eq_dec u uri then Some t else doc_get uri r
  end.

(** ** Handlers *)

(** AnalysisResult, cmd_lsp.c:201-208, when something was found *)
Record found := { d_name : list N; d_line : Z; d_file : option (list N); d_doc : option (list N); d_details : option (list N) }.
(** The machine, cJSON_PrintUnformatted, and what the analysis makes of a path and a text: the diagnostics (881-937), what is at a position
    (215-358), completions (491-768), symbols of a document with its URI (825-862) *)
Record server := {
  v_sys : system; v_print : json -> list N;
  v_diagnostics : files -> list N -> list N -> json;
  v_find : files -> list N -> list N -> Z -> Z -> option found;
  v_complete : files -> list N -> list N -> Z -> Z -> json;
  v_symbols : files -> list N -> list N -> list N -> json }.

(** cJSON_GetObjectItem of an item that may be NULL, and its fields *)
Fixpoint member (key : list N) (l : list (list N * json)) : option json :=
  match l with
  | [] => None
  | (k, v) :: r => if same_key k key then Some v else member key r
  end.
Definition item (o : option json) (key : string) : option json := match o with Some (JObj l) => member (chars key) l | _ => None end.
Definition valuestring (j : json) : option (list N) := match j with JStr s => Some s | _ => None end.
Definition the_item (o : option json) : got json := match o with Some j => Got j | None => Bad NullPointer end.
Definition the_string (o : option json) : got (list N) :=
  match o with Some (JStr s) => Got s | _ => Bad NullPointer end.
Definition the_int (o : option json) : got Z :=
  let? j := the_item o in match valueint j with Ok z => Got z | Ub _ => Bad OutOfRange end.

Definition num (z : Z) : json := JNum (f_of_Z F64 z).
Definition obj (l : list (string * json)) : json := JObj (map (fun m => (chars (fst m), snd m)) l).
Definition place (line character : Z) : json := obj [("line", num line); ("character", num character)]%string.
Definition range (a b : json) : json := obj [("start", a); ("end", b)]%string.
Definition str (s : string) : json := JStr (chars s).

(** send_response, cmd_lsp.c:98-105 *)
Definition response (id : option json) (r : json) : json :=
  JObj ((chars "jsonrpc"%string, str "2.0"%string) :: match id with Some i => [(chars "id"%string, i)] | None => [] end ++ [(chars "result"%string, r)]).
(** publish_diagnostics, cmd_lsp.c:881-938 *)
Definition publish (V : server) (fs : files) (uri text : list N) : json :=
  obj [("jsonrpc", str "2.0"%string); ("method", str "textDocument/publishDiagnostics"%string);
       ("params", obj [("uri", JStr uri); ("diagnostics", v_diagnostics V fs (uri_path uri) text)])]%string.

(** The open document or the file, cmd_lsp.c:499-500, 1013-1014, 1083-1084 *)
Definition source_of (V : server) (fs : files) (ds : docs) (uri : list N) : option (list N) :=
  match doc_get uri ds with Some t => Some t | None => read_text (v_sys V) fs (uri_path uri) end.

(** handle_definition, cmd_lsp.c:1022-1066; the URI buffer has 1024 bytes *)
Definition file_uri (path : list N) : list N :=
  map (fun c => if c =? 92 then 47 else c)
    (firstn 1023 (match path with _ :: 58 :: _ => chars "file:///"%string | _ => chars "file://"%string end ++ path)).
Definition location (uri : list N) (f : found) : json :=
  obj [("uri", JStr (match d_file f with Some p => file_uri p | None => uri end));
       ("range", range (place (d_line f) 0) (place (d_line f) 0))]%string.
(** The message of handle_hover, cmd_lsp.c:1098-1110: 4096 bytes, the offset grows by what each part would need *)
Definition piece (m : list N * N) (p : list N) : got (list N * N) :=
  let (text, off) := m in
  if 4096 <? off then Bad Overrun else Got (text ++ firstn (N.to_nat (4096 - off - 1)) p, off + lenN p).
Definition hover_text (f : found) : got (list N) :=
  let? m := piece ([], 0) (chars "**"%string ++ d_name f ++ chars "**"%string ++ [10; 10] ++ chars "Defined in "%string ++
                           match d_file f with Some p => p | None => chars "current file"%string end ++ chars " on line "%string ++ decimal_z (d_line f + 1) ++ chars "."%string) in
  let? m := match d_doc f with Some d => piece m ([10; 10] ++ d) | None => Got m end in
  let? m := match d_details f with Some d => piece m ([10; 10] ++ d) | None => Got m end in
  Got (fst m).
(** The edit of handle_formatting, cmd_lsp.c:781-797 *)
Definition whole_edit (text : list N) : json :=
  JArr [obj [("range", range (place 0 0) (place 999999 0)); ("newText", JStr text)]%string].

(** One message: the documents after it, what is sent, whether the server ends (main loop, cmd_lsp.c:1138-1172) *)
Definition handle (V : server) (fs : files) (ds : docs) (req : json) : got (docs * list json * bool) :=
  let id := item (Some req) "id"%string in
  let params := item (Some req) "params"%string in
  let doc := item params "textDocument"%string in
  let uri := item doc "uri"%string in
  let answer (r : json) := Got (ds, [response id r], false) in
  let nothing := Got (ds, [], false) in
  (* with the position first, as the handlers read it (493-497, 1004-1008, 1076-1080) *)
  let at_position (k : list N -> list N -> Z -> Z -> got (docs * list json * bool)) :=
    let pos := item params "position"%string in
    let? line := the_int (item pos "line"%string) in
    let? character := the_int (item pos "character"%string) in
    let? u := the_string uri in
    match source_of V fs ds u with None => answer JNull | Some text => k u text line character end in
  (* the file, not the open document (775-782, 811-818) *)
  let on_disk (k : list N -> list N -> got (docs * list json * bool)) :=
    let? u := the_string uri in
    match read_text (v_sys V) fs (uri_path u) with None => answer JNull | Some text => k u text end in
  match item (Some req) "method"%string with
  | Some (JStr m) =>
    let is (w : string) := same_text m (chars w) in
    if is "initialize"%string then                                                            (* 983-1001 *)
      answer (obj [("capabilities", obj [("definitionProvider", JBool true); ("hoverProvider", JBool true); ("documentSymbolProvider", JBool true);
        ("documentFormattingProvider", JBool true); ("completionProvider", obj [("resolveProvider", JBool false); ("triggerCharacters", str "."%string)]);
        ("textDocumentSync", num 1)])])%string
    else if is "textDocument/definition"%string then
      at_position (fun u text l c => match v_find V fs (uri_path u) text l c with Some f => answer (location u f) | None => answer JNull end)
    else if is "textDocument/hover"%string then
      at_position (fun u text l c => match v_find V fs (uri_path u) text l c with
        | Some f => let? t := hover_text f in answer (obj [("contents", obj [("kind", str "markdown"%string); ("value", JStr t)])])%string
        | None => answer JNull
        end)
    else if is "textDocument/completion"%string then
      at_position (fun u text l c => answer (v_complete V fs (uri_path u) text l c))
    else if is "textDocument/formatting"%string then                                           (* 771-805 *)
      on_disk (fun u text => answer (whole_edit (match format_source text with Some o => cstr o | None => text end)))
    else if is "textDocument/documentSymbol"%string then                                       (* 807-879 *)
      on_disk (fun u text => answer (v_symbols V fs (uri_path u) text u))
    else if is "textDocument/didOpen"%string then                                              (* 940-949 *)
      match uri, item doc "text"%string with
      | Some (JStr u), Some (JStr t) => Got (doc_update u t ds, [publish V fs u t], false)
      | _, _ => nothing
      end
    else if is "textDocument/didChange"%string then                                            (* 951-965 *)
      match doc, uri, item params "contentChanges"%string with
      | Some _, Some u, Some changes =>
        match rev (children changes) with
        | [] => nothing
        | c :: _ =>
          match item (Some c) "text"%string with
          | Some (JStr t) => let? u := the_string (Some u) in Got (doc_update u t ds, [publish V fs u t], false)
          | _ => nothing
          end
        end
      | _, _, _ => nothing
      end
    else if is "textDocument/didSave"%string then                                              (* 967-981 *)
      match uri with
      | Some (JStr u) => match read_text (v_sys V) fs (uri_path u) with Some t => Got (ds, [publish V fs u t], false) | None => nothing end
      | _ => nothing
      end
    else if is "shutdown"%string then answer JNull
    else if is "exit"%string then Got (ds, [], true)
    else nothing
  | _ => nothing
  end.

(** cmd_lsp, cmd_lsp.c:1130-1176: what is written to the output, for the bytes that arrive and the files at the time of each message *)
Fixpoint serve (V : server) (fuel : nat) (time : nat -> files) (ds : docs) (inp : list N) : got (list json) :=
  match fuel with
  | O => Bad NoFuel
  | S fuel =>
    let? m := read_body (s_empty (v_sys V)) inp in
    match m with
    | None => Got []
    | Some (body, rest) =>
      match s_parse (v_sys V) body with
      | None => Got []
      | Some req =>
        let? r := handle V (time O) ds req in
        let '(ds', out, stop) := r in
        if stop then Got out
        else let? more := serve V fuel (fun n => time (S n)) ds' rest in Got (out ++ more)
      end
    end
  end.
Definition cmd_lsp (V : server) (time : nat -> files) (inp : list N) : got (list N) :=
  let? out := serve V (S (length inp)) time [] inp in Got (flat_map (fun j => send_text (v_print V j)) out).
