(** C76: what the editor proposes; C73: all symbols of a document are listed. *)
From Coq Require Import Strings.String ZArith Lia.
From Verif Require Import Base ModelWord ModelTrans ModelVM SpecVM ModelText SpecText ModelParse ModelSchema ModelDiag ModelComplete SpecDiag SpecMessage SpecSource SpecGrammar SpecComplete LemOffers.
From Verif Require LemPlace PropSite.
Local Open Scope list_scope.
Local Open Scope N_scope.

(** C76, full statement: behind the name of an enumeration and a dot its members are proposed; in the arguments of @expr the functions and
    the fields of the structure; in those of @count and @len the fields; elsewhere the words of the language, the decorators, and the structures
    and enumerations that are defined.  Proved, for every document that the analysis finds no error in: at every cursor position these are
    the proposals, the structures and enumerations being those that the document and its imports define, all of them and in order.  Not
    proved: which fields are known of a structure, except that nothing is proposed that is not a structure's (C76_refuted_packet, and see
    C76_refuted_repeated, C76_refuted_missing and C76_refuted_unusable). *)
Theorem C76_proposals_partial : forall E fuel path src opened,
  (forall s, text (e_canon E s)) -> diagnose E fuel path src = Shown [] opened ->
  exists toks ws k fields, lex src = Some toks /\ map shown toks = ws ++ [mark TEof] /\
    file E path {| k_structs := []; k_enums := []; k_files := []; k_packets := 0; k_packed := false |} ws k /\
    (forall s, ~ In s (k_structs k) -> fields s = []) /\
    forall front line character, cursor_at src front line character -> exists l, complete E fuel path src line character = Offered l /\
      proposed (k_structs k) (k_enums k) fields (in_front front toks) l.
Proof.
  intros E fuel path src opened CT D. destruct (complete_known _ _ _ _ _ CT D) as (toks & ws & k & fields & A & B & C & F & G & _).
  exists toks, ws, k, fields. auto.
Qed.
Print Assumptions C76_proposals_partial.

(** While a document is being written, with errors in it: the same, of names that are defined in it or in a file. *)
Theorem C76_broken_document : forall E fuel path src line character l front,
  complete E fuel path src line character = Offered l -> cursor_at src front line character ->
  plain src -> (forall f text, e_read E f = Some text -> plain text) ->
  exists structs enums fields ts, tokens_of 0 src ts /\ proposed structs enums fields (in_front front ts) l /\
    (forall s, In s structs -> exists file text n, (file = path /\ text = src \/ e_read E file = Some text) /\ defines text TStruct s n) /\
    (forall e, In e enums -> exists file text n, (file = path /\ text = src \/ e_read E file = Some text) /\ defines text TEnum (m_name e) n) /\
    (forall s, ~ In s structs -> fields s = []).
Proof. exact complete_any. Qed.
Print Assumptions C76_broken_document.

(** C73, the other way: all structures and enumerations of a document without errors are among its symbols, and nothing else. *)
Theorem C73_all_symbols : forall E fuel path src opened,
  (forall s, text (e_canon E s)) -> diagnose E fuel path src = Shown [] opened ->
  exists toks ws k symbols, lex src = Some toks /\ map shown toks = ws ++ [mark TEof] /\
    file E path {| k_structs := []; k_enums := []; k_files := []; k_packets := 0; k_packed := false |} ws k /\
    document_symbols E fuel path src = Listed symbols /\
    map fst symbols = of_kind 23 (k_structs k) ++ of_kind 10 (map m_name (k_enums k)).
Proof.
  intros E fuel path src opened CT D. destruct (complete_known _ _ _ _ _ CT D) as (toks & ws & k & fields & A & B & C & _ & _ & symbols & F).
  exists toks, ws, k, symbols. tauto.
Qed.
Print Assumptions C73_all_symbols.

(** The text of one line, up to the cursor and behind it *)
Definition typed (front behind : string) : completed :=
  complete (PropSite.folder "" "") 100 (chars "m.cnd") (chars (front ++ behind)) 0 (Z.of_nat (String.length front)).
Definition labels (c : completed) : option (list (list N * N)) := match c with Offered l => Some l | _ => None end.

(** In a packet no field is proposed. *)
Theorem C76_refuted_packet : exists front behind,
  body_of (chars "P") (in_front (chars front) (match lex (chars (front ++ behind)) with Some ts => ts | None => [] end)) /\
  arguments_of (chars "count") (in_front (chars front) (match lex (chars (front ++ behind)) with Some ts => ts | None => [] end)) /\
  (exists opened, diagnose (PropSite.folder "" "") 100 (chars "m.cnd") (chars (front ++ behind)) = Shown [] opened) /\
  typed front behind = Offered [].
Proof.
  exists "packet P { u8 a; u16 b; @count("%string, "a) u8 c[]; }"%string. split; [|split; [|split]].
  - apply body_iff. eexists. vm_compute. reflexivity.
  - apply deco_iff. eexists. vm_compute. reflexivity.
  - eexists. vm_compute. reflexivity.
  - vm_compute. reflexivity.
Qed.
Print Assumptions C76_refuted_packet.

(** In a structure fields are proposed again whenever they are used in it. *)
Theorem C76_refuted_repeated : exists front behind l,
  (exists opened, diagnose (PropSite.folder "" "") 100 (chars "m.cnd") (chars (front ++ behind)) = Shown [] opened) /\
  typed front behind = Offered (of_kind function math_functions ++ of_kind field l) /\ ~ NoDup l.
Proof.
  exists "struct S { u8 a; u16 b; @expr("%string, "a + a) u8 c; } packet P { S s; }"%string, (map chars ["a"; "b"; "a"; "a"; "c"; "a"]%string).
  split; [eexists; vm_compute; reflexivity|]. split; [vm_compute; reflexivity|]. intros N. inversion N as [|x l NI _]. apply NI. right. now left.
Qed.
Print Assumptions C76_refuted_repeated.

(** A field may be missing: [b] stands in front of the cursor and is what the array is counted by, but behind a computed field it is not
    proposed. *)
Theorem C76_refuted_missing : exists front behind l,
  body_of (chars "S") (in_front (chars front) (match lex (chars (front ++ behind)) with Some ts => ts | None => [] end)) /\
  (exists a, front = (a ++ "u8 b; @count(")%string) /\ (exists c, behind = ("b)" ++ c)%string) /\
  (exists opened, diagnose (PropSite.folder "" "") 100 (chars "m.cnd") (chars (front ++ behind)) = Shown [] opened) /\
  typed front behind = Offered (of_kind field l) /\ ~ In (chars "b") l.
Proof.
  exists "struct S { @expr(1) u8 a; u8 b; @count("%string, "b) u8 c[]; } packet P { S s; }"%string, (map chars ["a"; "c"]%string).
  split; [apply body_iff; eexists; vm_compute; reflexivity|]. split; [exists "struct S { @expr(1) u8 a; "%string; reflexivity|].
  split; [eexists; reflexivity|]. split; [eexists; vm_compute; reflexivity|]. split; [vm_compute; reflexivity|].
  intros I. vm_compute in I. repeat (destruct I as [I|I]; [discriminate|]). destruct I.
Qed.
Print Assumptions C76_refuted_missing.

(** A proposal may be of no use: in place of a field that is a structure, the fields inside it are proposed, and where the text with the
    field [n] has no errors, the text with such a proposal has. *)
Theorem C76_refuted_unusable : exists front behind l,
  typed front (")" ++ behind)%string = Offered (of_kind field l) /\ In (chars "a.x") l /\ ~ In (chars "a") l /\
  (exists opened, diagnose (PropSite.folder "" "") 100 (chars "m.cnd") (chars (front ++ "n)" ++ behind)%string) = Shown [] opened) /\
  exists e r opened, diagnose (PropSite.folder "" "") 100 (chars "m.cnd") (chars (front ++ "a.x)" ++ behind)%string) = Shown (e :: r) opened.
Proof.
  exists "struct A { u8 x; } struct B { A a; u8 n; @count("%string, " u8 c[]; } packet P { B b; }"%string, (map chars ["a.x"; "n"; "c"]%string).
  split; [vm_compute; reflexivity|]. split; [vm_compute; tauto|]. split.
  { intros I. vm_compute in I. repeat (destruct I as [I|I]; [discriminate|]). destruct I. }
  split; [eexists; vm_compute; reflexivity|]. eexists _, _, _. vm_compute. reflexivity.
Qed.
Print Assumptions C76_refuted_unusable.

(** Once the first letter of a member is typed, the members are not proposed any more. *)
Theorem C76_refuted_letter : exists front c behind members,
  typed front behind = Offered (of_kind enum_member members) /\ In (chars (String c "")) members /\
  exists l, typed (front ++ String c "") behind = Offered l /\ forall m, In m members -> ~ In (m, enum_member) l.
Proof.
  exists "enum E : u8 { A, B } packet P { u8 k; @match(E."%string, (Ascii.ascii_of_nat 65), ") u8 b; }"%string, (map chars ["A"; "B"]%string).
  split; [vm_compute; reflexivity|]. split; [now left|]. eexists. split; [vm_compute; reflexivity|].
  intros m _ I. vm_compute in I. repeat (destruct I as [I|I]; [discriminate|]). destruct I.
Qed.
Print Assumptions C76_refuted_letter.

(** A document and the definitions of another file: everywhere, behind an enumeration, in the arguments of decorators *)
Definition library : string := "enum Kind : u8 { None, Some = 4 } struct Point { u8 x; u16 y; @expr(x) u8 z; }".
Definition document : string := "@import(""types.cnd"") struct Line { Point a; Kind n; switch (n) { case Kind.None: u8 b; } } packet P { Line l; }".
Example C76_nonvacuous :
  let src := chars document in
  let at_ n := complete (PropSite.folder document library) 100 (chars "main.cnd") src 0 n in
  (exists opened, diagnose (PropSite.folder document library) 100 (chars "main.cnd") src = Shown [] opened) /\
  cursor_at src (firstn 75 src) 0 75 /\ firstn 5 (skipn 70 src) = chars "Kind." /\
  at_ 75%Z = Offered (of_kind enum_member [chars "None"; chars "Some"]) /\
  at_ 0%Z = Offered (of_kind keyword statement_words ++ of_kind function decorator_words ++ of_kind class [chars "Point"; chars "Line"] ++ of_kind enumeration [chars "Kind"]) /\
  labels (typed "struct S { u8 a; u16 b; @count(" "a) u8 c[]; } packet P { S s; }") = Some (of_kind field (map chars ["a"; "b"; "c"]%string)) /\
  labels (typed "struct S { u8 a; @expr(sin(" "a)) f32 c; } packet P { S s; }") = Some (of_kind function math_functions ++ of_kind field (map chars ["a"; "a"; "c"; "a"]%string)).
Proof.
  cbv zeta. split; [eexists; vm_compute; reflexivity|]. split.
  - split; [exists (skipn 75 (chars document)); symmetry; apply firstn_skipn|]. split; [vm_compute; reflexivity|]. split; [|vm_compute; reflexivity].
    intros I. vm_compute in I. repeat (destruct I as [I|I]; [discriminate|]). destruct I.
  - split; [vm_compute; reflexivity|]. split; [vm_compute; reflexivity|]. split; [vm_compute; reflexivity|]. split; vm_compute; reflexivity.
Qed.
