(** C72, C73: diagnostics, definitions and symbols in the editor are where they are said to be. *)
From Coq Require Import Strings.String ZArith Lia.
From Verif Require Import Base ModelWord ModelTrans ModelVM SpecVM ModelText SpecText ModelParse ModelSchema ModelImage ModelDiag SpecDiag LemPlace PropGrammar.
Local Open Scope list_scope.

(** C72, full statement: every diagnostic published for a document is the position of something in that document.  Proved: it is
    the start of a token (or the end) of the document or of a file opened by its imports, when no string literal spans lines and
    carriage returns stand before newlines.  At most 1024 are published. *)
Theorem C72_diagnostics_partial : forall E fuel path src diags opened,
  diagnose E fuel path src = Shown diags opened -> plain src ->
  (forall f text, In (cstr f) opened -> e_read E f = Some text -> plain text) ->
  (List.length diags <= 1024)%nat /\
  Forall (fun d => exists file text ts t, (file = path /\ text = src \/ In (cstr file) opened /\ e_read E file = Some text) /\
    tokens_of 0 text ts /\ In t ts /\ d = start_of text t) diags.
Proof. intros E fuel path src diags opened X PS PF. split; [exact (diagnostics_few _ _ _ _ _ _ X)|exact (diagnostics_places _ _ _ _ _ _ X PS PF)]. Qed.
Print Assumptions C72_diagnostics_partial.

(** A document without imports: every diagnostic is in it. *)
Theorem C72_document : forall E fuel path src diags, diagnose E fuel path src = Shown diags [] -> plain src ->
  Forall (fun d => exists ts t, tokens_of 0 src ts /\ In t ts /\ d = start_of src t) diags.
Proof.
  intros E fuel path src diags X PS. eapply Forall_impl; [|exact (diagnostics_places _ _ _ _ _ _ X PS (fun f text I => match I with end))].
  intros d (file & text & ts & t & [(_ & ->)|([] & _)] & R). eauto.
Qed.
Print Assumptions C72_document.

(** Two files *)
Definition nl : string := String (Ascii.ascii_of_nat 10) "".
Definition folder (main types : string) : env := {|
  e_strtod := fun _ => 0;
  e_read := fun q => if same_text q (chars "main.cnd") then Some (chars main) else if same_text q (chars "types.cnd") then Some (chars types) else None;
  e_canon := fun q => q |}.
Definition main : string := "@import(""types.cnd"") packet P { T x; }".
(** An error in an imported file is published for the document, at a line the document does not have. *)
Theorem C72_refuted_imports : exists E fuel path src d more opened,
  e_read E path = Some src /\ plain src /\ (forall f text, e_read E f = Some text -> plain text) /\
  diagnose E fuel path src = Shown (d :: more) opened /\
  forall n, (fst (position (firstn n src) 0 0) < fst d)%Z.
Proof.
  exists (folder main ("struct T {" ++ nl ++ "  u8 a }")), 60%nat, (chars "main.cnd"). do 4 eexists. split; [vm_compute; reflexivity|].
  split; [apply plain_check; vm_compute; reflexivity|]. split.
  - intros f text. cbn [folder e_read]. destruct (same_text f _); [|destruct (same_text f _); [|discriminate]]; intros X; injection X as <-; apply plain_check; vm_compute; reflexivity.
  - split; [vm_compute; reflexivity|]. intros n. rewrite position_eq. cbn [fst].
    assert (L : newlines (firstn n (chars main)) = 0).
    { unfold newlines. destruct (filter (N.eqb 10) (firstn n (chars main))) as [|x l] eqn:F; [reflexivity|].
      assert (I : In x (filter (N.eqb 10) (firstn n (chars main)))) by (rewrite F; now left). apply filter_In in I. destruct I as (I & Q).
      apply N.eqb_eq in Q. subst x. assert (J : In 10 (chars main)) by (rewrite <- (firstn_skipn n (chars main)); apply in_or_app; now left).
      exfalso. revert J. clear. intros J. assert (B : existsb (N.eqb 10) (chars main) = true) by (apply existsb_exists; exists 10; now split). vm_compute in B. discriminate. }
    change (Z.of_N (newlines (firstn n (chars main))) < 1)%Z. rewrite L. reflexivity.
Qed.
Print Assumptions C72_refuted_imports.

Example C72_nonvacuous :
  let src := chars ("struct A { u8 x; }" ++ nl ++ "packet P {" ++ nl ++ "  A a;" ++ nl ++ "  B b;" ++ nl ++ "}") in
  plain src /\ diagnose (folder "" "") 60 (chars "p.cnd") src = Shown [(3, 5); (3, 5)]%Z [] /\
  exists ts t, tokens_of 0 src ts /\ In t ts /\ start_of src t = (3, 5)%Z /\ tk t = TSemicolon.
Proof.
  split; [apply plain_check; vm_compute; reflexivity|]. split; [vm_compute; reflexivity|]. eexists. exists {| tk := TSemicolon; tpos := 42; ttext := [59]; tline := 4 |}.
  split; [apply lex_tokens; vm_compute; reflexivity|]. split; [cbn; auto 30|]. split; vm_compute; reflexivity.
Qed.

(** C73, full statement: going to the definition at a position leads to the definition of what stands there.  Proved for answers
    that are definitions: the position touches an identifier, and in the text of the file named, on the line named, that
    identifier follows "struct" or "enum"; "enum" when the answer lists members.  Missing: that every defined name is found. *)
Theorem C73_definition_partial : forall E fuel path src line character name l file details,
  find_at E fuel path src line character = Looked (Some (name, Defined l file details)) ->
  plain src -> (forall f text, e_read E f = Some text -> plain text) ->
  (exists ts t, tokens_of 0 src ts /\ In t ts /\ tk t = TIdentifier /\ ttext t = name /\ fst (start_of src t) = line /\
    (snd (start_of src t) <= character <= snd (start_of src t) + Z.of_N (lenN name))%Z) /\
  exists text k, (file = path /\ text = src \/ e_read E file = Some text) /\ defines text k name l /\
    (if details then k = TEnum else k = TStruct \/ k = TEnum).
Proof. exact found_place. Qed.
Print Assumptions C73_definition_partial.

(** Every symbol listed is defined on its line, in the document or in a file it may import. *)
Theorem C73_symbols_partial : forall E fuel path src l,
  document_symbols E fuel path src = Listed l -> plain src -> (forall f text, e_read E f = Some text -> plain text) ->
  Forall (fun '(name, kind, line) => exists file text, (file = path /\ text = src \/ e_read E file = Some text) /\
    (kind = 23 /\ defines text TStruct name line \/ kind = 10 /\ defines text TEnum name line)) l.
Proof. exact symbols_places. Qed.
Print Assumptions C73_symbols_partial.

(** The symbols of an imported file are listed as symbols of the document, at lines of the other file. *)
Theorem C73_refuted_symbols : exists E fuel path src name kind line,
  e_read E path = Some src /\ newlines src = 0 /\ document_symbols E fuel path src = Listed [(name, kind, line)] /\ (0 < line)%Z.
Proof.
  exists (folder main (nl ++ "struct T { u8 a; }")), 60%nat, (chars "main.cnd"). do 4 eexists. split; [vm_compute; reflexivity|].
  split; [vm_compute; reflexivity|]. split; [vm_compute; reflexivity|]. reflexivity.
Qed.
Print Assumptions C73_refuted_symbols.

(** At the first character of a decorator's name nothing is found: the @ before it is touched too. *)
Theorem C73_refuted_decorator : exists E fuel path src name d,
  tokens_of 0 src [{| tk := TAt; tpos := 0; ttext := [64]; tline := 1 |}; {| tk := TIdentifier; tpos := 1; ttext := name; tline := 1 |};
    {| tk := TEof; tpos := 3; ttext := []; tline := 1 |}] /\
  find_at E fuel path src 0 2 = Looked (Some (name, d)) /\ find_at E fuel path src 0 1 = Looked None.
Proof.
  exists (folder "" ""), 60%nat, (chars "p.cnd"), (chars "@le"). do 2 eexists. split; [apply lex_tokens; vm_compute; reflexivity|].
  split; vm_compute; reflexivity.
Qed.
Print Assumptions C73_refuted_decorator.

(** With 1025 characters that begin no token, looking anything up reads past the errors kept. *)
Theorem C73_refuted_errors : exists E fuel path src, List.length src = 1025%nat /\ Forall (eq 36) src /\
  find_at E fuel path src 0 0 = LUndef /\ document_symbols E fuel path src = OUndef.
Proof.
  exists (folder "" ""), 60%nat, (chars "p.cnd"), (repeat 36 1025). split; [apply repeat_length|].
  split; [apply Forall_forall; intros x I; apply repeat_spec in I; now symmetry|]. split; vm_compute; reflexivity.
Qed.
Print Assumptions C73_refuted_errors.

Example C73_nonvacuous :
  let types := ("enum E : u8 { A, B = 4 }" ++ nl ++ "struct T { E e; }")%string in
  let doc := chars (main ++ nl ++ "struct U { T t; E e; }") in
  plain doc /\ (forall f text, e_read (folder "" types) f = Some text -> plain text) /\
  find_at (folder "" types) 60 (chars "main.cnd") doc 0 33 = Looked (Some (chars "T", Defined 1 (chars "types.cnd") None)) /\
  find_at (folder "" types) 60 (chars "main.cnd") doc 1 17 =
    Looked (Some (chars "E", Defined 0 (chars "types.cnd")
      (Some (chars ("Type: `u8`" ++ nl ++ nl ++ "Members:" ++ nl ++ "- `A` = `0`" ++ nl ++ "- `B` = `4`" ++ nl))))) /\
  find_at (folder "" types) 60 (chars "main.cnd") doc 1 8 = Looked (Some (chars "U", Defined 1 (chars "main.cnd") None)) /\
  find_at (folder "" types) 60 (chars "main.cnd") doc 0 35 = Looked None /\
  document_symbols (folder "" types) 60 (chars "main.cnd") doc = Listed [(chars "T", 23, 1%Z); (chars "U", 23, 1%Z); (chars "E", 10, 0%Z)].
Proof.
  split; [apply plain_check; vm_compute; reflexivity|]. split.
  - intros f text. cbn [folder e_read]. destruct (same_text f _); [|destruct (same_text f _); [|discriminate]]; intros X; injection X as <-; apply plain_check; vm_compute; reflexivity.
  - repeat split; vm_compute; reflexivity.
Qed.
