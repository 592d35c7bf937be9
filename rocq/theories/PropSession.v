(** C77: what an editor shows of a schema while it is written. *)
From Coq Require Import Strings.String ZArith Lia.
From Verif Require Import Base ModelWord ModelFloat ModelTrans ModelVM SpecVM ModelText ModelParse ModelSchema ModelJson Samples ModelTool ModelLsp ModelDiag ModelComplete ModelSession
  SpecText SpecDiag SpecLsp SpecSession LemLsp LemSession.
From Verif Require SpecFmt LemPlace PropLsp PropSite.
Local Open Scope list_scope.
Local Open Scope N_scope.

(** Full property: whatever the client opens, changes, saves, closes and asks, it gets, in order and in well-formed messages: for each text it
    opens, changes or saves the problems of that text, none exactly when the compiler accepts it, each at a token; for each question one
    response, about the text as the client has it, that leads to the definition of the name at the position, proposes what is defined, lists
    the definitions, describes the name, or formats the text without changing what it compiles to.  The texts need not be saved: "the compiler accepts" is about the files with that text saved.

    Proved for conversations as in C67 over texts that are [sound].  Missing: texts whose analysis is undefined, with 1024 errors or more, or
    imported by their own imports (C71_refuted_cycle), paths that are not canonical, string literals over several lines. *)
Theorem C77_session_partial : forall S print W fuel time ms bs last, let V := server_of S print W fuel in
  (forall q, text (s_canon S q)) -> Forall2 (spoken V) ms bs -> all_well V time [] ms -> all_sound V fuel time [] ms ->
  (last = [] \/ exists bye rest, farewell V bye /\ last = bye ++ rest) ->
  (forall j, In j (conversation V time [] ms) -> body (print j)) ->
  exists sent outs, cmd_lsp V time (concat bs ++ last) = Got (concat outs) /\ Forall2 (fun j b => carries b (print j)) sent outs /\ goes V time [] ms sent.
Proof.
  intros S print W fuel time ms bs last V CT F W' A E B. destruct (PropLsp.C67_session_partial V time ms bs last F W' E B) as (outs & C & O).
  exists (conversation V time [] ms), outs. split; [exact C|]. split; [exact O|]. now apply going.
Qed.
Print Assumptions C77_session_partial.

(** C71 for a text that is not saved: the server's diagnostics of it are empty exactly when the compiler would accept it. *)
Theorem C71_unsaved : forall E fuel path src errors opened, (forall q, text (e_canon E q)) -> e_canon E path = path ->
  diagnose E fuel path src = Shown errors opened -> ~ In path opened ->
  (errors = [] <-> accepted (saved_as E path src) path) /\ (errors <> [] <-> refused (saved_as E path src) path).
Proof.
  intros E fuel path src errors opened CT CP D NI. pose proof (verdict _ _ _ _ _ _ CT CP D NI) as V. pose proof (one_verdict (saved_as E path src) path) as O.
  destruct errors; split; split; intros X; try assumption; try reflexivity; try discriminate; try congruence; exfalso; eauto.
Qed.
Print Assumptions C71_unsaved.

(** ** A session: a text is opened, broken, repaired with another name, and asked about *)
Definition clean (l : list N) : list N := filter (fun c => (0 <? c) && (c <? 256)) l.
Definition uri77 : list N := chars "file:///m".
Definition first77 : string := "struct Point { u8 x; } packet P { Point p; }".
Definition broken77 : string := "struct Point { u8 x } packet P { Point p; }".
Definition last77 : string := "enum Kind : u8 { A, B } struct Pair { u8 x; Kind k; } packet P { Pair p; }".
Definition talk77 : list message :=
  [Ask (num 1) Initialize; Opened uri77 (chars first77); Changed uri77 [] (chars broken77); Changed uri77 [chars broken77] (chars last77);
   Ask (num 2) (WhereIs uri77 0 67); Ask (num 5) (Hover uri77 0 44); Ask (num 3) (Complete uri77 0 65); Saved uri77; Ask (num 4) (Symbols uri77); Ask (num 6) (Format uri77); Closed (chars "file:///other")].
Definition system77 : system :=
  {| s_place := fun p => lenN p; s_readable := fun _ => true; s_writable := fun _ => true; s_canon := clean; s_empty := true;
     s_parse := fun t => match t with [c] => nth_error (map json_of talk77) (N.to_nat (c - 65)) | _ => None end; s_print := fun _ => []; s_strtod := fun _ => 0; s_libm := lm0 |}.
Definition V77 : server := server_of system77 (fun _ => chars "x") {| w_message := fun _ _ _ _ => chars "wrong"; w_doc := fun _ _ _ _ => None; w_more := fun _ _ _ _ => [] |} 100.
Definition files77 (n : nat) : files := fun i => if i =? 2 then Some (chars last77) else None.
Definition diagnostics_of (j : json) : option json :=
  match item (item (Some j) "params") "diagnostics" with Some d => Some d | None => None end.
Lemma sound77 n t : In t [first77; broken77; last77] -> sound 100 (env_of system77 (files77 n)) (uri_path uri77) (chars t).
Proof.
  intros I. assert (PF : forall f text, e_read (env_of system77 (files77 n)) f = Some text -> plain text).
  { intros f text. cbn [env_of e_read read_text]. unfold read_text, contents, files77. cbn [system77 s_readable s_place]. destruct (lenN f =? 2); [|discriminate].
    intros X. injection X as <-. apply LemPlace.plain_check. vm_compute. reflexivity. }
  destruct I as [<-|[<-|[<-|[]]]]; (do 2 eexists; split; [vm_compute; reflexivity|]; split; [cbn; lia|]; split; [cbn; tauto|]; split; [reflexivity|];
    split; [apply LemPlace.plain_check; vm_compute; reflexivity|exact PF]).
Qed.
Example C77_nonvacuous :
  (forall q, text (s_canon system77 q)) /\ Forall2 (spoken V77) talk77 (PropLsp.bytes67 11) /\ all_well V77 files77 [] talk77 /\ all_sound V77 100 files77 [] talk77 /\
  (forall j, In j (conversation V77 files77 [] talk77) -> body (chars "x")) /\
  match conversation V77 files77 [] talk77 with
  | [_; a; b; c; d; h; _; e; _; f] =>
    diagnostics_of a = Some (JArr []) /\ (exists x l, diagnostics_of b = Some (JArr (x :: l))) /\ diagnostics_of c = Some (JArr []) /\ diagnostics_of e = Some (JArr []) /\
    d = result_of (num 2) (where_is uri77 0) /\
    h = result_of (num 5) (hover (hover_line (chars "Kind") (chars "/m") 0 ++ [10; 10] ++ chars "Type: `u8`" ++ [10; 10] ++ chars "Members:" ++ [10] ++
      chars "- `A` = `0`" ++ [10] ++ chars "- `B` = `1`" ++ [10])) /\ (exists new, f = result_of (num 6) (replace_to 999999 new)) /\
    SpecFmt.tidy SpecFmt.Code (chars last77) = true
  | _ => False
  end.
Proof.
  split; [|split; [|split; [|split; [|split]]]].
  - intros q. apply Forall_forall. intros c I. apply filter_In in I. destruct I as (_ & I). apply andb_prop in I. lia.
  - unfold PropLsp.bytes67, talk77. cbn [seq map]. repeat (constructor; [eexists; split; [apply PropLsp.carries67; vm_compute; split; reflexivity|reflexivity]|]). constructor.
  - cbn [all_well talk77 asked_well]. repeat split; try lia; try reflexivity.
    intros t f E1 E2. vm_compute in E1. injection E1 as <-. vm_compute in E2. injection E2 as <-. vm_compute. reflexivity.
  - cbn [all_sound talk77]. repeat (split; [intros path src X|]); try exact Logic.I; try discriminate X; vm_compute in X; injection X as <- <-;
      match goal with |- sound _ _ _ ?t => first [change t with (chars first77) | change t with (chars broken77) | change t with (chars last77)] end;
      apply (sound77 0); cbn; tauto.
  - intros j _. split; [repeat constructor|]; cbn; lia.
  - vm_compute. repeat split; try reflexivity; do 2 eexists; reflexivity.
Qed.
