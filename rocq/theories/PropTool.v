(** C62: the command line tool: files, exit codes, and whole sessions. *)
From Coq Require Import Strings.String.
From Verif Require Import Base SpecBytes SpecVM ModelWord ModelVM ModelTrans ModelFloat SpecReal ModelText SpecText ModelFmt SpecFmt ModelParse ModelSchema ModelImage SpecImage SpecParse SpecPacket
  SpecMessage Samples ModelJson SpecJson SpecNest SpecNestJson ModelTool SpecTool SpecAlike LemAlike LemTool LemToolRun PropPacket PropNest PropJson PropNestJson.

(** Every command that ends, ends with code 0 or 1, changes no file but the one its output argument names, and changes nothing at
    all if the code is 1. (Of lsp the model says nothing: [Unmodelled].) *)
Theorem C62_one_file S fuel fs argv code fs' pr : main S fuel fs argv = Exits code fs' pr ->
  (code = 0 \/ code = 1) /\ (code = 1 -> forall i, fs' i = fs i) /\
  (forall i, (forall out, output argv out -> s_place S out <> i) -> fs' i = fs i).
Proof.
  intros H. apply main_leaves in H as [(-> & ->)|[(-> & -> & NO)|(out & l & O & A & -> & [(W & ->)|(W & ->)])]].
  - auto.
  - repeat split; auto.
  - split; [auto|]. split; [discriminate|]. intros i D. apply put_other. intros ->. now apply (D out O).
  - repeat split; auto.
Qed.
Print Assumptions C62_one_file.

(** Full property: a command that exits with 0 has put the result asked for into the output file. Proved where the output file can be
    opened; otherwise see the refutation. *)
Theorem C62_success_partial S fuel fs argv out fs' pr : main S fuel fs argv = Exits 0 fs' pr -> output argv out -> s_writable S out = true ->
  exists l, asked_for S fs argv l /\ fs' (s_place S out) = Some l.
Proof.
  intros H O W. apply main_leaves in H as [(X & _)|[(_ & _ & NO)|(o & l & O' & A & _ & [(_ & ->)|(W' & ->)])]].
  - discriminate.
  - exfalso. eauto.
  - rewrite (output_one _ _ _ O O'). exists l. split; [exact A|apply put_same].
  - rewrite (output_one _ _ _ O O') in W. congruence.
Qed.
Print Assumptions C62_success_partial.

(** A schema goes through the tool: it is compiled, a document with the values [ts] is encoded, and the message decoded. All three
    commands exit with 0; the message file holds the message of the values, the output file the text of a document that shows them; no
    other file has changed. Full property: for every schema and document; here, as in C58, schemas of structures and a packet of plain
    fields, structures and arrays of them, within the limits given. The files may have any names, and these may be other names for one
    file, as long as the image is not overwritten by the message nor is the document by the image. *)
Theorem C62_journey_partial : forall S fs k toks ts d src il doc msg out text,
  holds_schema (env_of S fs) src k toks ->
  Forall (fun n => lenN n <= 255) (all_names k) -> lenN (all_names k) <= 65535 -> 16 + table_bytes (schema_names k) < 2 ^ 32 ->
  fold_right N.max 0 (map depth (sc_members k)) <= 8 -> fold_right N.max 0 (map nesting (sc_members k)) <= 31 ->
  (forall fuel im, compile_file (env_of S fs) fuel src = CImage im -> lenN im < 2 ^ 62) ->
  every2 tree_ok (sc_members k) ts -> members_managed (sc_members k) ts (schema_order k) -> lenN (message k ts) <= 1024 ->
  s_writable S il = true -> s_writable S msg = true -> s_writable S out = true -> s_readable S il = true -> s_readable S msg = true ->
  contents S fs doc = Some text -> s_parse S (cstr text) = Some d -> object (sc_members k) ts d ->
  s_place S doc <> s_place S il -> s_place S msg <> s_place S il -> message k ts <> [] \/ s_empty S = true ->
  exists n fs' o, prints_members (sc_members k) ts o /\
    (forall fuel, (n <= fuel)%nat ->
       session S fuel fs [cmd "compile" [src; il]; cmd "encode" [il; doc; msg]; cmd "decode" [il; msg; out]] = ([0; 0; 0], Exits 0 fs' [])) /\
    (s_place S msg <> s_place S out -> fs' (s_place S msg) = Some (message k ts)) /\
    fs' (s_place S out) = Some (cstr (s_print S (JObj o))) /\
    (forall i, i <> s_place S il -> i <> s_place S msg -> i <> s_place S out -> fs' i = fs i).
Proof.
  intros S fs k toks ts d src il doc msg out text HS LB LN TB DP NS IL TO TM LM V1 V2 V3 R1 R2 CT PT OD D1 D2 EM.
  destruct (journey S fs k toks ts d src il doc msg out text HS LB LN TB DP NS IL TO TM LM V1 V2 V3 R1 R2 CT PT OD D1 D2 EM) as (n & im & o & PR & _ & J & _).
  exists n, (after S fs k ts il msg out im o), o. split; [exact PR|]. split; [exact J|]. unfold after. split; [|split].
  - intros N. rewrite put_other by exact N. apply put_same.
  - apply put_same.
  - intros i A B C. now rewrite !put_other.
Qed.
Print Assumptions C62_journey_partial.

(** The document written by decode, encoded again, gives the same message, if the JSON library reads back what it printed. *)
Theorem C62_back_partial : forall S fs k toks ts d src il doc msg out text msg2,
  holds_schema (env_of S fs) src k toks ->
  Forall (fun n => lenN n <= 255) (all_names k) -> lenN (all_names k) <= 65535 -> 16 + table_bytes (schema_names k) < 2 ^ 32 ->
  fold_right N.max 0 (map depth (sc_members k)) <= 8 -> fold_right N.max 0 (map nesting (sc_members k)) <= 31 ->
  (forall fuel im, compile_file (env_of S fs) fuel src = CImage im -> lenN im < 2 ^ 62) ->
  every2 tree_ok (sc_members k) ts -> members_managed (sc_members k) ts (schema_order k) -> lenN (message k ts) <= 1024 ->
  s_writable S il = true -> s_writable S msg = true -> s_writable S out = true -> s_readable S il = true -> s_readable S msg = true ->
  contents S fs doc = Some text -> s_parse S (cstr text) = Some d -> object (sc_members k) ts d ->
  s_place S doc <> s_place S il -> s_place S msg <> s_place S il -> message k ts <> [] \/ s_empty S = true ->
  all_distinct (sc_members k) -> s_writable S msg2 = true -> s_readable S out = true -> s_place S out <> s_place S il ->
  (forall o, prints_members (sc_members k) ts o -> s_parse S (cstr (s_print S (JObj o))) = Some (JObj o)) ->
  exists n fs', (forall fuel, (n <= fuel)%nat ->
    session S fuel fs [cmd "compile" [src; il]; cmd "encode" [il; doc; msg]; cmd "decode" [il; msg; out]; cmd "encode" [il; out; msg2]] =
    ([0; 0; 0; 0], Exits 0 fs' [])) /\ fs' (s_place S msg2) = Some (message k ts).
Proof.
  intros S fs k toks ts d src il doc msg out text msg2 HS LB LN TB DP NS IL TO TM LM V1 V2 V3 R1 R2 CT PT OD D1 D2 EM AD V4 R3 D3 PP.
  destruct (journey_back S fs k toks ts d src il doc msg out text HS LB LN TB DP NS IL TO TM LM V1 V2 V3 R1 R2 CT PT OD D1 D2 EM msg2 AD V4 R3 D3 PP) as (n & im & o & J).
  exists n, (put (after S fs k ts il msg out im o) (s_place S msg2) (message k ts)). split; [exact J|apply put_same].
Qed.
Print Assumptions C62_back_partial.

(** A file of a schema, its root or an imported one, formatted in place: the command exits with 0, and whatever compiled before
    compiles to the same image after. Full property: for every text; here for tidy ones (C44), as C61 shows it must be. *)
Theorem C62_fmt_in_place_partial S fuel fs file text : contents S fs file = Some text -> s_writable S file = true -> tidy Code (cstr text) = true ->
  exists fs' o, main S fuel fs (cmd "fmt" [file; file]) = Exits 0 fs' [] /\ format_source (cstr text) = Some o /\ fs' (s_place S file) = Some o /\
  forall fuel path, compile_file (env_of S fs') fuel path = compile_file (env_of S fs) fuel path.
Proof.
  intros C W T. destruct (in_place S fuel fs file [] text C W T) as (fs' & o & M & F & E & SS). exists fs', o. split; [exact M|]. split; [exact F|].
  split; [subst; apply put_same|]. intros f p. symmetry. now apply compile_same.
Qed.
Print Assumptions C62_fmt_in_place_partial.

(** *** A system with a few files *)
Definition names62 : list (list N) := map chars ["s"; "i"; "d"; "m"; "o"; "n"; "no"]%string.
Definition place62 (p : list N) : N := SpecParse.index_of names62 p.
Definition system62 : system :=
  {| s_place := place62; s_readable := fun _ => true; s_writable := fun p => negb (same_text p (chars "no")); s_canon := fun p => p; s_empty := true;
     s_parse := fun t => if same_text t (chars "{doc}") then Some doc58 else if same_text t (chars "{out}") then Some out58 else None;
     s_print := fun _ => chars "{out}"; s_strtod := fun _ => 0; s_libm := lm0 |}.
Definition files62 : files := fun i => if i =? 0 then Some (chars src57) else if i =? 2 then Some (chars "{doc}") else None.
Definition after62 (cmds : list (list (list N))) : list N * option (list (option (list N))) :=
  let (codes, e) := session system62 2000 files62 cmds in
  (codes, match e with Exits _ fs _ => Some (map fs [2; 3; 4; 5]) | _ => None end).
Definition arg (w : String.string) : list N := chars w.

(** encode and decode exit with 0 although the output file could not be opened; compile and fmt exit with 1. *)
Theorem C62_refuted_unwritten :
  after62 [cmd "compile" [arg "s"; arg "i"]; cmd "encode" [arg "i"; arg "d"; arg "no"]] = ([0; 0], Some [Some (chars "{doc}"); None; None; None]) /\
  after62 [cmd "compile" [arg "s"; arg "i"]; cmd "encode" [arg "i"; arg "d"; arg "m"]; cmd "decode" [arg "i"; arg "m"; arg "no"]] =
    ([0; 0; 0], Some [Some (chars "{doc}"); Some msg58; None; None]) /\
  after62 [cmd "compile" [arg "s"; arg "no"]; cmd "fmt" [arg "s"; arg "no"]] = ([1; 1], Some [Some (chars "{doc}"); None; None; None]).
Proof. repeat split; vm_compute; reflexivity. Qed.
Print Assumptions C62_refuted_unwritten.

Example C62_nonvacuous :
  after62 [cmd "fmt" [arg "s"; arg "s"]; cmd "compile" [arg "s"; arg "i"]; cmd "encode" [arg "i"; arg "d"; arg "m"]; cmd "decode" [arg "i"; arg "m"; arg "o"];
           cmd "encode" [arg "i"; arg "o"; arg "n"]] =
  ([0; 0; 0; 0; 0], Some [Some (chars "{doc}"); Some msg58; Some (chars "{out}"); Some msg58]).
Proof. vm_compute. reflexivity. Qed.
(** The hypotheses of the session theorems, for that system *)
Example C62_nonvacuous_hypotheses :
  holds_schema (env_of system62 files62) (arg "s") schema57 (toks_of src57) /\ contents system62 files62 (arg "d") = Some (chars "{doc}") /\
  s_parse system62 (cstr (chars "{doc}")) = Some doc58 /\ object (sc_members schema57) trees58 doc58 /\ every2 tree_ok (sc_members schema57) trees58 /\
  members_managed (sc_members schema57) trees58 (schema_order schema57) /\ lenN (message schema57 trees58) = 34 /\
  place62 (arg "d") <> place62 (arg "i") /\ place62 (arg "m") <> place62 (arg "i") /\ tidy Code (cstr (chars src57)) = true.
Proof.
  split.
  { destruct C57_compiles_nonvacuous as (s & ws & R & L & M & K). exists (chars src57), ws. split; [vm_compute; reflexivity|].
    cbn in R. injection R as <-. auto. }
  destruct C58_nonvacuous_values as (_ & A & B & _ & _ & C). repeat (split; [first [assumption | vm_compute; reflexivity | vm_compute; discriminate]|]).
  vm_compute. reflexivity.
Qed.
