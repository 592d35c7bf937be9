(** C67: the language server. *)
From Coq Require Import Strings.String.
From Verif Require Import Base ModelWord ModelFloat ModelTrans ModelVM ModelImage ModelText ModelFmt ModelNames ModelParse ModelSchema ModelJson Samples ModelTool ModelLsp SpecLsp LemLsp.

(** Full property: whatever the client opens, changes, saves, closes and asks, in whatever order, it gets one response to each question, with
    the identifier of the question and the answer for the text as the client has it, in order, and the diagnostics of each changed text; nothing else.

    Proved for all conversations in any framing the protocol allows, files that change under the server, and whatever follows the exit notification,
    when the client formats or lists symbols only of texts that are saved, closes only what was not opened, asks nothing the server does not know,
    and hovers take less than 4096 bytes. Missing: the other conversations, where it is false (see the refutations), and the analysis behind the answers,
    which is a parameter. *)
Theorem C67_session_partial : forall V time ms bs last, Forall2 (spoken V) ms bs -> all_well V time [] ms ->
  (last = [] \/ exists bye rest, farewell V bye /\ last = bye ++ rest) ->
  (forall j, In j (conversation V time [] ms) -> body (v_print V j)) ->
  exists outs, cmd_lsp V time (concat bs ++ last) = Got (concat outs) /\
    Forall2 (fun j b => carries b (v_print V j)) (conversation V time [] ms) outs.
Proof.
  intros V time ms bs last F W E B. destruct (sent_all V _ B) as (outs & O & C). exists outs. split; [|exact O]. rewrite <- C. exact (spoken_all V time ms bs last F W E).
Qed.
Print Assumptions C67_session_partial.

(** The server takes a message to end where its header says, whatever the header lines around the length are, and reads its own framing back. *)
Theorem C67_framing : forall malloc0 bytes text rest, carries bytes text -> read_body malloc0 (bytes ++ rest) = Got (Some (text, rest)).
Proof. exact read_carried. Qed.
Print Assumptions C67_framing.
Theorem C67_framing_sent : forall text, body text -> carries (send_text text) text.
Proof. exact sent_carries. Qed.
Print Assumptions C67_framing_sent.

(** On any input at all the server comes to an end of the input, to an exit, or to undefined behaviour: it does not hang. *)
Theorem C67_ends : forall V time inp, cmd_lsp V time inp <> Bad NoFuel.
Proof. exact lsp_fuel. Qed.
Print Assumptions C67_ends.

(** A file URI names the file whose path it spells, with any bytes written as escapes, in either case; for a path with a drive letter, without
    the slash before it. *)
Theorem C67_uri : forall u p, spells u p -> Forall (fun c => c <> 0 /\ c < 256) p ->
  (~ drive p -> uri_path (chars "file://" ++ u) = p) /\ (drive p -> uri_path (chars "file://" ++ u) = tl p).
Proof. intros u p S F. rewrite (uri_spelt u p S F). split; [apply no_drive_same|apply no_drive_tail]. Qed.
Print Assumptions C67_uri.

(** Full property: the URI the server gives for a definition in another file names that file.
    Proved for absolute paths without percent signs and backslashes, up to 1015 bytes. Missing: others, where it is false. *)
Theorem C67_uri_back_partial : forall p, Forall (fun c => c <> 37 /\ c <> 92 /\ c <> 0 /\ c < 256) p -> lenN p <= 1015 ->
  (exists r, p = 47 :: r /\ ~ drive p /\ (forall q, r <> 58 :: q)) \/ (exists a r, p = a :: 58 :: r /\ drive (47 :: p)) ->
  uri_path (file_uri p) = p.
Proof. exact uri_back. Qed.
Print Assumptions C67_uri_back_partial.

(** Full property: the edit that formatting gives replaces the whole text.
    Proved for texts of at most 999999 lines. Missing: longer texts, where it is false. *)
Theorem C67_edit_partial : forall new old, newlines old < 999999 ->
  exists last, whole_edit new = replace_to last new /\ new ++ from_line (Z.to_nat last) old = new.
Proof. intros new old L. exists 999999%Z. split; [reflexivity|]. rewrite from_line_none by lia. apply app_nil_r. Qed.
Print Assumptions C67_edit_partial.

(** ** A server: its parser knows the messages below by their first byte; its analysis finds the text it is given *)
Definition uri67 : list N := chars "file:///a%20b".
Definition finds67 (text : list N) : found := {| d_name := text; d_line := 6; d_file := None; d_doc := None; d_details := None |}.
Definition server67 (ms : list json) : server :=
  {| v_sys := {| s_place := fun p => lenN p; s_readable := fun _ => true; s_writable := fun _ => true; s_canon := fun p => p; s_empty := true;
       s_parse := fun t => match t with [c] => nth_error ms (N.to_nat (c - 65)) | _ => None end; s_print := fun _ => []; s_strtod := fun _ => 0; s_libm := lm0 |};
     v_print := fun j => match j with JObj [_; (_, JNum i); (_, JStr t)] => t | JObj [_; _; (_, JObj [(_, JObj [_; (_, JStr t)])])] => t | _ => chars "other" end;
     v_diagnostics := fun fs p t => JStr t;
     v_find := fun fs p t l c => Some (finds67 (p ++ [32] ++ t)); v_complete := fun fs p t l c => JNull; v_symbols := fun fs p t u => JStr t |}.
Definition files67 (n : nat) : files := fun i => if i =? 4 then Some (chars "struct  A{u8 a;}") else None.
Definition frame67 (t : list N) : list N := framed [chars "Content-Type: x"] (chars "001") [] t.
Definition talk67 : list message :=
  [Ask (num 1) Initialize; Ask (num 2) (Format uri67); Opened uri67 (chars "struct  A{u8 a;}"); Ask (num 3) (Symbols uri67);
   Changed uri67 [chars "x"] (chars "y"); Ask (num 4) (Hover uri67 2 3); Ask (num 5) Shutdown].
Definition bye67 : json := obj [("jsonrpc", str "2.0"%string); ("method", str "exit"%string)]%string.
Definition V67 : server := server67 (map json_of talk67 ++ [bye67]).
Definition bytes67 (n : nat) : list (list N) := map (fun i => frame67 [65 + N.of_nat i]) (seq 0 n).
Lemma carries67 c : 0 < c < 256 -> carries (frame67 [c]) [c].
Proof.
  intros B. exists [chars "Content-Type: x"], (chars "001"), []. split; [|split; [constructor|split; [|split; [|reflexivity]]]].
  - apply Forall_cons; [|constructor]. split; [apply Forall_forall; intros x X; cbn in X; lia|]. split; [discriminate|]. split; [vm_compute; discriminate|discriminate].
  - split; [apply Forall_cons; [lia|constructor]|cbn; lia].
  - split; [apply Forall_forall; intros x X; cbn in X; lia|]. split; [discriminate|]. split; [vm_compute; discriminate|reflexivity].
Qed.
Example C67_session_nonvacuous :
  Forall2 (spoken V67) talk67 (bytes67 7) /\ all_well V67 files67 [] talk67 /\ farewell V67 (frame67 [72]) /\
  (forall j, In j (conversation V67 files67 [] talk67) -> body (v_print V67 j)) /\
  cmd_lsp V67 files67 (concat (bytes67 7) ++ frame67 [72] ++ chars "garbage") =
    Got (send_text (chars "other") ++ send_text (chars "other") ++ send_text (chars "other") ++ send_text (chars "struct  A{u8 a;}") ++ send_text (chars "other") ++
         send_text (chars "**/a b y**" ++ [10; 10] ++ chars "Defined in current file on line 7.") ++ send_text (chars "other")).
Proof.
  split; [|split; [|split; [|split]]].
  - unfold bytes67, talk67. cbn [seq map]. repeat (constructor; [eexists; split; [apply carries67; vm_compute; split; reflexivity|reflexivity]|]). constructor.
  - cbn [all_well talk67 asked_well]. repeat split; try lia; try reflexivity. intros t f E1 E2. vm_compute in E1. injection E1 as <-. cbn in E2. injection E2 as <-. vm_compute. reflexivity.
  - eexists. split; [apply carries67; vm_compute; split; reflexivity|reflexivity].
  - intros j I. assert (A : forallb (fun j => forallb (fun c => negb (c =? 0) && (c <? 256)) (v_print V67 j) && (0 <? lenN (v_print V67 j)) && (lenN (v_print V67 j) <? 2 ^ 31)) (conversation V67 files67 [] talk67) = true)
      by (vm_compute; reflexivity).
    rewrite forallb_forall in A. specialize (A j I). apply andb_prop in A as (A & A3). apply andb_prop in A as (A1 & A2). split; [|lia].
    apply Forall_forall. intros c IC. rewrite forallb_forall in A1. specialize (A1 c IC). lia.
  - vm_compute. reflexivity.
Qed.
Example C67_uri_nonvacuous : spells (chars "/tmp/a%20b%c3%A9") (chars "/tmp/a b" ++ [195; 169]) /\
  uri_path (chars "file:///tmp/a%20b%c3%A9") = chars "/tmp/a b" ++ [195; 169] /\ drive (chars "/c:/x") /\ uri_path (chars "file:///c%3A/x") = chars "c:/x".
Proof.
  split; [|split; [reflexivity|split; [|reflexivity]]].
  - cbn. repeat (apply sp_char; [discriminate|]). apply (sp_escape 50 48 2 0); [left; lia|left; lia|]. apply sp_char; [discriminate|].
    apply (sp_escape 99 51 12 3); [right; lia|left; lia|]. apply (sp_escape 65 57 10 9); [right; lia|left; lia|]. constructor.
  - exists 99, (chars "/x"). split; [reflexivity|lia].
Qed.
Example C67_edit_nonvacuous : newlines (chars "a" ++ [10; 10] ++ chars "b") < 999999 /\ from_line 1 (chars "a" ++ [10; 10] ++ chars "b") = [10] ++ chars "b".
Proof. split; reflexivity. Qed.

(** ** Where the full properties are false *)
(** Formatting gives the client an edit made from the file, not from the text it has: what was typed since is lost. *)
Theorem C67_refuted_format : exists V time ms bs, Forall2 (spoken V) ms bs /\
  cmd_lsp V time (concat bs) <> Got (flat_map (fun j => send_text (v_print V j)) (conversation V time [] ms)) /\
  exists u text, ms = [Opened u text; Ask (num 1) (Format u)].
Proof.
  set (ms := [Opened uri67 (chars "struct  A{u8 b;}"); Ask (num 1) (Format uri67)]).
  exists (let S := server67 (map json_of ms) in {| v_sys := v_sys S; v_print := fun j => match j with JObj [_; _; (_, JArr [JObj [_; (_, JStr t)]])] => t | _ => chars "other" end;
     v_diagnostics := v_diagnostics S; v_find := v_find S; v_complete := v_complete S; v_symbols := v_symbols S |}), files67, ms, (bytes67 2).
  split; [|split; [|do 2 eexists; reflexivity]].
  - unfold bytes67, ms. cbn [seq map]. repeat (constructor; [eexists; split; [apply carries67; vm_compute; split; reflexivity|reflexivity]|]). constructor.
  - vm_compute. discriminate.
Qed.
Print Assumptions C67_refuted_format.
(** A text stays open after it is closed, whatever the file says then. *)
Theorem C67_refuted_close : exists V time ms bs, Forall2 (spoken V) ms bs /\
  cmd_lsp V time (concat bs) <> Got (flat_map (fun j => send_text (v_print V j)) (conversation V time [] ms)) /\
  exists u text, ms = [Opened u text; Closed u; Ask (num 1) (Hover u 0 0)].
Proof.
  set (ms := [Opened uri67 (chars "x"); Closed uri67; Ask (num 1) (Hover uri67 0 0)]).
  exists (server67 (map json_of ms)), files67, ms, (bytes67 3). split; [|split; [|do 2 eexists; reflexivity]].
  - unfold bytes67, ms. cbn [seq map]. repeat (constructor; [eexists; split; [apply carries67; vm_compute; split; reflexivity|reflexivity]|]). constructor.
  - vm_compute. discriminate.
Qed.
Print Assumptions C67_refuted_close.
(** A question the server does not know is not answered. *)
Theorem C67_refuted_unknown : exists V time m b, spoken V m b /\ (exists id method, m = Ask id (Other method)) /\ cmd_lsp V time b = Got [].
Proof.
  set (m := Ask (num 1) (Other (chars "textDocument/references"))). exists (server67 [json_of m]), files67, m, (frame67 [65]).
  split; [eexists; split; [apply carries67; vm_compute; split; reflexivity|reflexivity]|]. split; [do 2 eexists; reflexivity|vm_compute; reflexivity].
Qed.
Print Assumptions C67_refuted_unknown.
(** Text that is not JSON ends the server: what is asked after it is not answered. *)
Theorem C67_refuted_bad_json : exists V time bad m b, (exists t, carries bad t /\ s_parse (v_sys V) t = None) /\ spoken V m b /\ m = Ask (num 1) Shutdown /\ cmd_lsp V time (bad ++ b) = Got [].
Proof.
  exists (server67 [json_of (Ask (num 1) Shutdown)]), files67, (frame67 [90]), (Ask (num 1) Shutdown), (frame67 [65]).
  split; [exists [90]; split; [apply carries67; lia|reflexivity]|]. split; [eexists; split; [apply carries67; vm_compute; split; reflexivity|reflexivity]|]. split; [reflexivity|vm_compute; reflexivity].
Qed.
Print Assumptions C67_refuted_bad_json.
(** A length of -1 makes the server write outside the memory it has; so does a hover whose parts take more than 4096 bytes; a
    formatting request without parameters follows a null pointer. *)
Theorem C67_refuted_length : forall V time rest, s_empty (v_sys V) = true -> cmd_lsp V time (chars "Content-Length: -1" ++ [13; 10; 13; 10] ++ rest) = Bad Overrun.
Proof.
  intros V time rest E. unfold cmd_lsp. cbn [serve]. rewrite E. unfold read_body. set (inp := chars "Content-Length: -1" ++ [13; 10; 13; 10] ++ rest).
  assert (H : read_header (S (length inp)) 0 inp = Got (Some (2 ^ 64 - 1, rest))) by reflexivity. rewrite H. reflexivity.
Qed.
Print Assumptions C67_refuted_length.
Theorem C67_refuted_hover : exists V time ms bs, Forall2 (spoken V) ms bs /\ cmd_lsp V time (concat bs) = Bad Overrun.
Proof.
  set (ms := [Ask (num 1) (Hover uri67 0 0)]).
  exists (let S := server67 (map json_of ms) in {| v_sys := v_sys S; v_print := v_print S; v_diagnostics := v_diagnostics S;
     v_find := fun fs p t l c => Some {| d_name := []; d_line := 0; d_file := None; d_doc := Some (repeat 97 4096); d_details := Some [] |};
     v_complete := v_complete S; v_symbols := v_symbols S |}), files67, ms, (bytes67 1).
  split; [|vm_compute; reflexivity]. unfold bytes67, ms. cbn [seq map]. repeat (constructor; [eexists; split; [apply carries67; vm_compute; split; reflexivity|reflexivity]|]). constructor.
Qed.
Print Assumptions C67_refuted_hover.
Theorem C67_refuted_params : exists V time b, carries b [65] /\
  s_parse (v_sys V) [65] = Some (obj [("jsonrpc", str "2.0"%string); ("id", num 1); ("method", str "textDocument/formatting"%string)]%string) /\ cmd_lsp V time b = Bad NullPointer.
Proof.
  exists (server67 [obj [("jsonrpc", str "2.0"%string); ("id", num 1); ("method", str "textDocument/formatting"%string)]%string]), files67, (frame67 [65]).
  split; [apply carries67; lia|]. split; [reflexivity|vm_compute; reflexivity].
Qed.
Print Assumptions C67_refuted_params.
(** The URI of a file whose path has an escape in it names another file. *)
Theorem C67_refuted_uri_back : uri_path (file_uri (chars "/a%41")) = chars "/aA".
Proof. reflexivity. Qed.
Print Assumptions C67_refuted_uri_back.
(** The end of a text of a million lines stays behind the formatted text. *)
Theorem C67_refuted_edit : exists old, forall new, whole_edit new = replace_to 999999 new /\ new ++ from_line (Z.to_nat 999999) old = new ++ [97].
Proof. exists (repeat 10 (Z.to_nat 999999) ++ [97]). intros new. split; [reflexivity|]. now rewrite from_line_rest. Qed.
Print Assumptions C67_refuted_edit.
