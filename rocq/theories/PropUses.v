(** C73: definitions are found from every use. *)
From Coq Require Import Strings.String ZArith Lia.
From Verif Require Import Base ModelWord ModelTrans ModelVM SpecVM ModelText SpecText ModelParse ModelSchema ModelDiag SpecDiag SpecMessage SpecSource SpecGrammar LemOffers LemUses.
From Verif Require LemPlace PropSite PropComplete LemGrammarFile.
Local Open Scope list_scope.
Local Open Scope N_scope.

(** In a document without errors, from any character of a name of a structure or enumeration but its first, wherever it stands except behind an
    @, a definition is found.  With C73_definition_partial, that of the name. *)
Theorem C73_every_use : forall E fuel path src opened,
  (forall s, text (e_canon E s)) -> diagnose E fuel path src = Shown [] opened -> plain src ->
  exists toks ws k, lex src = Some toks /\ map shown toks = ws ++ [mark TEof] /\
    file E path {| k_structs := []; k_enums := []; k_files := []; k_packets := 0; k_packed := false |} ws k /\
    forall before t after line character, toks = before ++ t :: after -> tk t = TIdentifier -> (forall l x, before = l ++ [x] -> tk x <> TAt) ->
      In (ttext t) (k_structs k) \/ In (ttext t) (map m_name (k_enums k)) ->
      fst (start_of src t) = line -> (snd (start_of src t) < character <= snd (start_of src t) + Z.of_N (lenN (ttext t)))%Z ->
      exists l file details, find_at E fuel path src line character = Looked (Some (ttext t, Defined l file details)).
Proof.
  intros E fuel path src opened CT D PS. destruct (shown_none _ _ _ _ _ D) as (p & A & E0). destruct (analyse_known _ _ _ _ _ CT A E0) as (toks & ws & LX & MS & FL).
  exists toks, ws, (LemGrammarFile.known_of p). split; [exact LX|]. split; [exact MS|]. split; [exact FL|].
  intros a t b line ch -> K NA I L C. eapply use_found; eauto.
  - unfold last_kind. destruct (rev a) as [|x r] eqn:R; [discriminate|]. apply (NA (rev r) x). apply (f_equal (@rev _)) in R. now rewrite rev_involutive in R.
  - cbn in I. rewrite map_map in I. exact I.
Qed.
Print Assumptions C73_every_use.

Example C73_every_use_nonvacuous :
  let src := chars PropComplete.document in
  (exists opened, diagnose (PropSite.folder PropComplete.document PropComplete.library) 100 (chars "main.cnd") src = Shown [] opened) /\ plain src /\
  firstn 5 (skipn 35 src) = chars "Point" /\
  exists l file, find_at (PropSite.folder PropComplete.document PropComplete.library) 100 (chars "main.cnd") src 0 37 = Looked (Some (chars "Point", Defined l file None)).
Proof.
  cbv zeta. split; [eexists; vm_compute; reflexivity|]. split; [apply LemPlace.plain_check; vm_compute; reflexivity|]. split; [vm_compute; reflexivity|].
  do 2 eexists. vm_compute. reflexivity.
Qed.
