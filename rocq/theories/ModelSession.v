(** * The language server with its analysis: the parts of cmd_lsp.c that turn what the parser found into the items of the protocol

    [ModelLsp.server] leaves these functions open; here they are, made of [ModelDiag] and [ModelComplete].  Where the analysis is undefined
    (or out of fuel) they give a JNull that the program does not give; the theorems ask for texts whose analysis is defined. *)
From Coq Require Import Strings.String.
From Verif Require Import Base ModelWord ModelTrans ModelVM ModelText ModelParse ModelSchema ModelJson ModelTool ModelLsp ModelDiag ModelComplete.
Local Open Scope string_scope.
Local Open Scope list_scope.
Local Open Scope N_scope.

(** Texts that are not modelled, for the files, the path and the text: the message of each error, the documentation comment of a definition,
    detail and documentation of a proposal *)
Record words := {
  w_message : files -> list N -> list N -> nat -> list N;
  w_doc : files -> list N -> list N -> list N -> option (list N);
  w_more : files -> list N -> list N -> offer -> list (list N * json) }.

(** The items of publish_diagnostics, cmd_lsp.c:907-924 *)
Definition diagnostic_item (message : list N) (d : Z * Z) : json :=
  obj [("range", range (place (fst d) (snd d)) (place (fst d) (snd d + 1))); ("severity", num 1); ("message", JStr message); ("source", str "concordia")].
Fixpoint diagnostic_items (message : nat -> list N) (n : nat) (ds : list (Z * Z)) : list json :=
  match ds with [] => [] | d :: r => diagnostic_item (message n) d :: diagnostic_items message (S n) r end.
Definition session_diagnostics (S : system) (W : words) (fuel : nat) (fs : files) (path src : list N) : json :=
  match diagnose (env_of S fs) fuel path src with Shown ds _ => JArr (diagnostic_items (w_message W fs path src) O ds) | _ => JNull end.

(** AnalysisResult as analyze_source fills it, cmd_lsp.c:287-343 *)
Definition session_find (S : system) (W : words) (fuel : nat) (fs : files) (path src : list N) (line character : Z) : option found :=
  match find_at (env_of S fs) fuel path src line character with
  | Looked (Some (name, Decorator doc detail)) => Some {| d_name := name; d_line := 0; d_file := Some (chars "built-in"); d_doc := Some doc; d_details := Some detail |}
  | Looked (Some (name, Defined l file details)) => Some {| d_name := name; d_line := l; d_file := Some file; d_doc := w_doc W fs path src name; d_details := details |}
  | _ => None
  end.

(** The list of handle_completion, cmd_lsp.c:641-752 *)
Definition session_complete (S : system) (W : words) (fuel : nat) (fs : files) (path src : list N) (line character : Z) : json :=
  match complete (env_of S fs) fuel path src line character with
  | Offered l => obj [("isIncomplete", JBool false);
      ("items", JArr (map (fun o => JObj ([(chars "label", JStr (fst o)); (chars "kind", num (Z.of_N (snd o)))] ++ w_more W fs path src o)) l))]
  | _ => JNull
  end.

(** The list of handle_document_symbol, cmd_lsp.c:832-866 *)
Definition session_symbols (S : system) (fuel : nat) (fs : files) (path src uri : list N) : json :=
  match document_symbols (env_of S fs) fuel path src with
  | Listed l => JArr (map (fun '(name, kind, line) => obj [("name", JStr name); ("kind", num (Z.of_N kind));
      ("location", obj [("uri", JStr uri); ("range", range (place line 0) (place line 0))])]) l)
  | _ => JNull
  end.

Definition server_of (S : system) (print : json -> list N) (W : words) (fuel : nat) : server :=
  {| v_sys := S; v_print := print; v_diagnostics := session_diagnostics S W fuel; v_find := session_find S W fuel;
     v_complete := session_complete S W fuel; v_symbols := session_symbols S fuel |}.
