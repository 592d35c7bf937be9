(** The language server with its analysis. *)
From Coq Require Import Strings.String ZArith Lia.
From Verif Require Import Base ModelWord ModelFloat ModelTrans ModelVM SpecVM ModelText ModelParse ModelSchema ModelJson ModelTool ModelLsp ModelDiag ModelComplete ModelSession
  SpecText SpecDiag SpecMessage SpecSource SpecComplete SpecLsp SpecSession LemMono LemStr LemUnsaved LemOffers LemUses LemLsp ModelFmt SpecAlike.
From Verif Require SpecFmt LemFmtSame LemLex LemAlike LemTool LemOutline LemGrammarField LemDiag LemPlace LemSite LemComplete LemGrammarFile SpecGrammar.
Local Open Scope list_scope.
Local Open Scope N_scope.

Lemma one_verdict E path : accepted E path -> refused E path -> False.
Proof.
  intros (f & im & A) (g & R). destruct (Compare_dec.le_ge_dec f g) as [L|L].
  - rewrite (compile_mono E f g path L) in R by congruence. congruence.
  - rewrite (compile_mono E g f path L) in A by congruence. congruence.
Qed.
(** ** The verdict of the compiler on a text that is not saved *)
Lemma verdict E fuel path src ds opened : (forall s, text (e_canon E s)) -> e_canon E path = path ->
  diagnose E fuel path src = Shown ds opened -> ~ In path opened ->
  match ds with [] => accepted (saved_as E path src) path | _ :: _ => refused (saved_as E path src) path end.
Proof.
  intros CT CP D NI. unfold diagnose in D. destruct (analyse E fuel path src) as [[] p| |] eqn:A; try discriminate. injection D as <- <-.
  assert (CC : forall p, cstr (e_canon E p) = e_canon E p) by (intros q; apply cstr_text, CT).
  pose proof (LemPlace.diagnostics_nil _ _ _ _ _ A) as NIL.
  set (R := fun q => if list_eq_dec N.eq_dec q path then Some src else e_read E q).
  assert (RX : forall q, q <> path -> R q = e_read E q) by (intros q NE; unfold R; destruct (list_eq_dec N.eq_dec q path); [contradiction|reflexivity]).
  assert (A2 : analyse (saved_as E path src) fuel path src = POk tt p) by exact (analyse_near E R path RX CC fuel path src tt p A NI).
  pose proof (LemPlace.diagnostics_nil _ _ _ _ _ A2) as NIL2.
  pose proof (LemDiag.agree_file (saved_as E path src) fuel path src (diagnostics (saved_as E path src) src p) (map cstr (p_imports p)) CT) as G.
  cbn [saved_as e_canon e_read] in G. rewrite CP in G. destruct (list_eq_dec N.eq_dec path path) as [_|X]; [|contradiction].
  specialize (G eq_refl). unfold diagnose in G. fold (saved_as E path src) in G. rewrite A2 in G. specialize (G eq_refl NI).
  destruct (diagnostics E src p) as [|d l] eqn:DE.
  - rewrite (proj2 NIL2 (proj1 NIL eq_refl)) in G. destruct G as (im & G). exists fuel, im. exact G.
  - destruct (diagnostics (saved_as E path src) src p) as [|d2 l2]; [|exists fuel; exact G].
    exfalso. pose proof (proj2 NIL (proj1 NIL2 eq_refl)). discriminate.
Qed.

Section Text.
Variables (E : env) (fuel : nat) (path src : list N).
Hypothesis CT : forall s, text (e_canon E s).
Variables (ds : list (Z * Z)) (opened : list (list N)).
Hypothesis D : diagnose E fuel path src = Shown ds opened.
Hypothesis FEW : (List.length ds < 1024)%nat.
Hypothesis NI : ~ In path opened.
Hypothesis CP : e_canon E path = path.
Hypothesis PS : plain src.
Hypothesis PF : forall f text, e_read E f = Some text -> plain text.

Lemma none_accepted : ds = [] <-> accepted (saved_as E path src) path.
Proof.
  pose proof (verdict E fuel path src ds opened CT CP D NI) as V. split; [intros X; now rewrite X in V|]. intros A. destruct ds; [reflexivity|].
  exfalso. eapply one_verdict; eauto.
Qed.
Lemma some_refused : ds <> [] <-> refused (saved_as E path src) path.
Proof.
  pose proof (verdict E fuel path src ds opened CT CP D NI) as V. split; [intros X; destruct ds; [contradiction|exact V]|]. intros A X. rewrite X in V.
  eapply one_verdict; eauto.
Qed.
(** The analysis itself *)
Lemma the_analysis : exists toks p, lex src = Some toks /\ analyse E fuel path src = POk tt p /\ (List.length (p_errs p) < 1024)%nat.
Proof.
  pose proof D as D'. unfold diagnose in D'. destruct (analyse E fuel path src) as [[] p| |] eqn:A; try discriminate. injection D' as D' _.
  assert (X : exists toks, lex src = Some toks) by (unfold analyse in A; destruct (lex src); [eauto|discriminate]). destruct X as (toks & LX).
  exists toks, p. split; [exact LX|]. split; [reflexivity|]. rewrite <- D' in FEW. unfold diagnostics in FEW. rewrite map_length, firstn_length, rev_length in FEW.
  change ModelDiag.kept with 1024%nat in FEW. lia.
Qed.

(** ** Problems *)
Lemma items_problem message : forall l n, Forall (fun d => exists file txt ts t, (file = path /\ txt = src \/ In (cstr file) opened /\ e_read E file = Some txt) /\
    tokens_of 0 txt ts /\ In t ts /\ d = start_of txt t) l -> Forall (problem E path src) (diagnostic_items message n l).
Proof.
  induction l as [|d l IH]; intros n F; cbn [diagnostic_items]; [constructor|]. inversion_clear F as [|? ? H F']. constructor; [|now apply IH].
  destruct H as (file & txt & ts & t & W & T & I & ->). exists file, txt, ts, t, (fst (start_of txt t)), (snd (start_of txt t)), (message n).
  split; [destruct W as [W|(_ & W)]; [left|right]; exact W|]. split; [exact T|]. split; [exact I|]. split; [apply surjective_pairing|]. reflexivity.
Qed.
Lemma items_nil message n : forall l, diagnostic_items message n l = [] <-> l = [].
Proof. intros [|d l]; cbn [diagnostic_items]; split; congruence. Qed.
Lemma text_problems message : problems E path src (JArr (diagnostic_items message O ds)).
Proof.
  exists (diagnostic_items message O ds). split; [reflexivity|]. split.
  - apply items_problem. apply (LemPlace.diagnostics_places _ _ _ _ _ _ D PS). intros f t _ R. exact (PF f t R).
  - split; [rewrite items_nil; exact none_accepted|]. rewrite items_nil. exact some_refused.
Qed.

(** ** Definitions *)
Lemma decorator_at line ch name doc detail : find_at E fuel path src line ch = Looked (Some (name, Decorator doc detail)) ->
  name_at src line ch name /\ In (64 :: name) decorator_words.
Proof.
  unfold find_at. destruct the_analysis as (toks & p & LX & A & FE). rewrite LX, A. destruct (_ <? _)%nat; [discriminate|]. intros X. injection X as X.
  destruct (token_at _ _ _ _ _) as [(t & deco)|] eqn:TA; [|discriminate]. destruct (LemPlace.token_at_spec _ _ _ _ _ _ _ TA) as (IT & LN & CO).
  unfold look_up in X. destruct (is_kind TIdentifier t) eqn:K; [|discriminate]. apply LemComplete.is_kind_iff in K.
  destruct (if deco then builtin (ttext t) else None) as [(dc & dt)|] eqn:B.
  - injection X as <- <- <-. destruct deco; [|discriminate]. split.
    + exists toks, t. split; [exact (LemPlace.lex_tokens _ _ LX)|]. split; [exact IT|]. split; [exact K|]. split; [reflexivity|]. split; [|exact CO].
      rewrite <- LN. symmetry. eapply LemPlace.plain_line; eauto.
    + unfold builtin in B. destruct (find _ builtins) as [((n & a) & b)|] eqn:F; [|discriminate]. apply find_some in F. destruct F as (I & F). cbn [fst] in F.
      unfold same_text in F. destruct (list_eq_dec N.eq_dec (chars n) (ttext t)) as [<-|]; [|discriminate].
      assert (ALL : forallb (fun b => if in_dec (list_eq_dec N.eq_dec) (64 :: chars (fst (fst b))) decorator_words then true else false) builtins = true) by (vm_compute; reflexivity).
      rewrite forallb_forall in ALL. specialize (ALL _ I). cbn [fst] in ALL. destruct (in_dec _ _ _); [assumption|discriminate].
  - destruct (find_site false _ _); [discriminate|]. destruct (find_site true _ _); discriminate.
Qed.

Definition led (o : option found) (u : list N) : json :=
  match o with Some f => where_is (match d_file f with Some p => file_uri p | None => u end) (d_line f) | None => JNull end.
Lemma known_now : ds = [] -> exists toks ws k, lex src = Some toks /\ map SpecGrammar.shown toks = ws ++ [SpecGrammar.mark TEof] /\
  SpecGrammar.file E path {| SpecGrammar.k_structs := []; SpecGrammar.k_enums := []; SpecGrammar.k_files := []; SpecGrammar.k_packets := 0; SpecGrammar.k_packed := false |} ws k /\
  known E path src (SpecGrammar.k_structs k) (SpecGrammar.k_enums k) /\ exists p, analyse E fuel path src = POk tt p /\ k = LemGrammarFile.known_of p.
Proof.
  intros X. pose proof D as D'. rewrite X in D'. destruct (shown_none _ _ _ _ _ D') as (p & A & E0). destruct (analyse_known _ _ _ _ _ CT A E0) as (toks & ws & LX & MS & FL).
  exists toks, ws, (LemGrammarFile.known_of p). split; [exact LX|]. split; [exact MS|]. split; [exact FL|]. split; [|eauto]. exists toks, ws, (LemGrammarFile.known_of p). auto.
Qed.
Lemma defined_place line ch name l file details : find_at E fuel path src line ch = Looked (Some (name, Defined l file details)) ->
  name_at src line ch name /\ exists text k, text_of E path src file text /\ (k = TStruct \/ k = TEnum) /\ defines text k name l.
Proof.
  intros X. destruct (LemPlace.found_place _ _ _ _ _ _ _ _ _ _ X PS PF) as (N & text & k & T & DF & K). split; [exact N|]. exists text, k. split; [exact T|]. split; [|exact DF].
  destruct details; auto.
Qed.
End Text.

(** ** Formatting *)
Lemma format_reformats E path src : reformats E path src (replace_to 999999 (match format_source src with Some o => cstr o | None => src end)).
Proof.
  eexists. split; [reflexivity|]. intros F T fuel. destruct (LemFmtSame.format_code src T) as (o & ts & to & FS & A & B & C). rewrite FS.
  rewrite LemTool.cstr_same by (eapply LemTool.format_text; [exact F|exact FS]). symmetry. apply LemAlike.compile_same. repeat split. intros p. cbn [saved_as e_read].
  destruct (list_eq_dec N.eq_dec p path); [exists ts, to; auto|]. destruct (e_read E p) as [q|]; [|exact Logic.I].
  destruct (LemLex.lex_from_spec (Datatypes.S (List.length q)) q 0 1 ltac:(lia)) as (us & L & _). exists us, us. auto.
Qed.
(** ** The members in a hover *)
Lemma type_short n : (List.length (chars (type_word n)) <= 8)%nat.
Proof. unfold type_word. repeat match goal with |- context [match ?x with _ => _ end] => destruct x end; cbn; lia. Qed.
Lemma members_same e : Forall (fun m => lenN (member_line m) < 256) (en_vals e) -> members_text e = members_shown (LemGrammarField.listed e).
Proof.
  intros F. unfold members_text, members_shown. cbn [LemGrammarField.listed m_type m_members]. change (type_name (en_type e)) with (type_word (en_type e)).
  pose proof (type_short (en_type e)) as L. rewrite firstn_all2 by (rewrite !app_length; cbn [chars List.length]; lia). rewrite <- !app_assoc. do 6 f_equal.
  revert F. generalize (en_vals e) as l. induction l as [|m l IH]; intros F; cbn [flat_map]; [reflexivity|]. inversion_clear F as [|? ? B F'].
  rewrite (IH F'). f_equal. apply firstn_all2. unfold lenN in B. fold (member_line m). lia.
Qed.

(** ** The server *)
Section Server.
Variables (S : system) (print : json -> list N) (W : ModelSession.words) (fuel : nat).
Hypothesis CT : forall s, text (s_canon S s).
Lemma find_leads fs path src line ch u : sound fuel (env_of S fs) path src -> leads (env_of S fs) path src line ch (led (session_find S W fuel fs path src line ch) u).
Proof.
  intros (ds & opened & D & FEW & NI & CP & PS & PF). set (E := env_of S fs) in *. assert (CT' : forall s, text (e_canon E s)) by exact CT. split.
  - unfold session_find. fold E. destruct (find_at E fuel path src line ch) as [[(name & [doc detail|l file details])|]| | |] eqn:X; cbn [led d_file d_line]; try (now left).
    + right; left. exists name. destruct (decorator_at E fuel path src CT' ds opened D FEW PS PF line ch name doc detail X). auto.
    + right; right. destruct (defined_place E fuel path src PS PF _ _ _ _ _ _ X) as (N & text & k & T & K & DF). exists name, file, text, k, l. auto.
  - intros A. apply (none_accepted E fuel path src CT' ds opened D FEW NI CP) in A.
    destruct (known_now E fuel path src CT' ds opened D A) as (toks & ws & k & LX & MS & FL & KN & p & AN & KP).
    exists (SpecGrammar.k_structs k), (SpecGrammar.k_enums k). split; [exact KN|]. intros name I (before & t & after & T & K & <- & NA & L & C).
    assert (F : exists l file details, find_at E fuel path src line ch = Looked (Some (ttext t, Defined l file details))).
    { eapply use_found; eauto; [rewrite A in D; exact D| |].
      - unfold last_kind. destruct (rev before) as [|x r] eqn:R; [discriminate|]. apply (NA (rev r) x). apply (f_equal (@rev _)) in R. now rewrite rev_involutive in R.
      - subst k. cbn in I. rewrite map_map in I. apply in_app_iff in I. exact I. }
    destruct F as (l & file & details & F). destruct (defined_place E fuel path src PS PF _ _ _ _ _ _ F) as (N & text & kd & TX & KD & DF).
    exists file, text, kd, l. unfold session_find. fold E. rewrite F. auto.
Qed.

Definition hovered (o : option found) : json := match o with Some f => hover (hover_full f) | None => JNull end.
Lemma full_line name l file doc details : hover_full {| d_name := name; d_line := l; d_file := Some file; d_doc := doc; d_details := details |} =
  hover_line name file l ++ match doc with Some d => [10; 10] ++ d | None => [] end ++ match details with Some d => [10; 10] ++ d | None => [] end.
Proof. unfold hover_full, hover_line. cbn [d_name d_line d_file d_doc d_details]. now rewrite <- !app_assoc. Qed.
Lemma find_hovers fs path src line ch : sound fuel (env_of S fs) path src -> hovers (env_of S fs) path src line ch (hovered (session_find S W fuel fs path src line ch)).
Proof.
  intros (ds & opened & D & FEW & NI & CP & PS & PF). set (E := env_of S fs) in *. assert (CT' : forall s, text (e_canon E s)) by exact CT. split.
  - unfold session_find. fold E. destruct (find_at E fuel path src line ch) as [[(name & [doc detail|l file details])|]| | |] eqn:X; cbn [hovered]; try (now left).
    + right; left. destruct (decorator_at E fuel path src CT' ds opened D FEW PS PF line ch name doc detail X). exists name. eexists. split; [assumption|]. split; [assumption|]. now rewrite full_line.
    + right; right. destruct (defined_place E fuel path src PS PF _ _ _ _ _ _ X) as (N & text & k & T & K & DF). exists name, file, text, k, l. eexists.
      split; [exact N|]. split; [exact T|]. split; [exact K|]. split; [exact DF|]. now rewrite full_line.
  - intros AC. apply (none_accepted E fuel path src CT' ds opened D FEW NI CP) in AC.
    destruct (known_now E fuel path src CT' ds opened D AC) as (toks & ws & k & LX & MS & FL & KN & p & AN & KP).
    exists (SpecGrammar.k_structs k), (SpecGrammar.k_enums k). split; [exact KN|]. intros name I (before & t & after & T & K & <- & NA & L & C).
    assert (I' : In (ttext t) (map fst (p_structs p)) \/ In (ttext t) (map en_name (p_enums p))).
    { subst k. cbn in I. rewrite map_map in I. apply in_app_iff in I. exact I. }
    assert (F : exists l file details, find_at E fuel path src line ch = Looked (Some (ttext t, Defined l file details))).
    { eapply use_found; eauto; [rewrite AC in D; exact D|].
      unfold last_kind. destruct (rev before) as [|x r] eqn:R; [discriminate|]. apply (NA (rev r) x). apply (f_equal (@rev _)) in R. now rewrite rev_involutive in R. }
    destruct F as (l & file & details & F). destruct (defined_place E fuel path src PS PF _ _ _ _ _ _ F) as (N & text & kd & TX & KD & DF).
    exists file, text, kd, l. eexists. split; [exact TX|]. split; [exact KD|]. split; [exact DF|]. unfold session_find. fold E. rewrite F. cbn [hovered]. rewrite full_line.
    split; [reflexivity|]. intros NS.
    assert (G : exists e, In e (p_enums p) /\ en_name e = ttext t /\ details = Some (members_text e)).
    { destruct (LemOutline.analyse_names _ _ _ _ _ AN) as (N1 & N2). unfold LemOutline.names in N1, N2. unfold find_at in F. rewrite LX, AN in F. destruct (_ <? _)%nat; [discriminate|].
      injection F as F. destruct (token_at _ _ _ _ _) as [(t' & deco)|]; [|discriminate]. unfold look_up in F. destruct (is_kind TIdentifier t'); [|discriminate].
      destruct (if deco then _ else None) as [(dc & dt)|]; [discriminate|]. destruct (find_site false (ttext t') (p_sites p)) as [s|] eqn:F1.
      - exfalso. injection F as Q _ _ _. apply NS. subst k. cbn. rewrite <- N1. destruct (LemPlace.find_site_spec _ _ _ _ F1) as (IS & EN & NM).
        apply in_map_iff. exists s. split; [congruence|]. apply filter_In. split; [exact IS|]. rewrite EN. reflexivity.
      - destruct (find_site true (ttext t') (p_sites p)) as [s|] eqn:F2; [|discriminate]. injection F as Q _ _ F. rewrite Q in F. rewrite Q in F2.
        destruct I' as [I'|I']; [exfalso; apply NS; subst k; exact I'|]. apply in_map_iff in I' as (e & EN & IE).
        destruct (find_enum (p_enums p) (ttext t)) as [e'|] eqn:FE; [|exfalso; apply (LemGrammarField.enum_unfound _ _ FE); rewrite map_map, <- EN; cbn [LemGrammarField.listed m_name]; now apply in_map].
        assert (IE' : In e' (p_enums p)) by (unfold find_enum in FE; now apply find_some in FE). destruct (LemGrammarField.enum_found _ _ _ FE) as (_ & EN'). exists e'. cbn [option_map] in F. auto. }
    destruct G as (e & IE & EN & ->). exists (LemGrammarField.listed e). eexists. split; [subst k; cbn; now apply in_map|]. split; [exact EN|].
    intros SH. rewrite (members_same e SH). reflexivity.
Qed.

Lemma complete_proposes fs path src line ch : sound fuel (env_of S fs) path src -> proposes (env_of S fs) path src line ch (session_complete S W fuel fs path src line ch).
Proof.
  intros (ds & opened & D & FEW & NI & CP & PS & PF). set (E := env_of S fs) in *. assert (CT' : forall s, text (e_canon E s)) by exact CT.
  destruct (the_analysis E fuel path src CT' ds opened D FEW PF) as (toks & p & LX & A & FE).
  assert (X : exists l, complete E fuel path src line ch = Offered l).
  { unfold complete. rewrite LX, A. assert ((ModelDiag.kept <? List.length (p_errs p))%nat = false) as -> by (change ModelDiag.kept with 1024%nat; apply PeanoNat.Nat.ltb_ge; lia). eauto. }
  destruct X as (l & X). unfold session_complete. fold E. rewrite X. do 2 eexists. split; [reflexivity|]. split.
  { instantiate (1 := l). clear. induction l as [|o l IH]; constructor; [|exact IH]. exists (w_more W fs path src o). reflexivity. }
  intros front CU. destruct (complete_any _ _ _ _ _ _ _ _ X CU PS PF) as (structs & enums & fields & ts & T & P & D1 & D2 & FU).
  destruct ds as [|d0 ds'] eqn:DS.
  - destruct (complete_known _ _ _ _ _ CT' D) as (toks2 & ws & k & fields2 & LX2 & MS & FL & FU2 & PR & _). destruct (PR front line ch CU) as (l2 & X2 & P2).
    assert (l2 = l) by congruence. subst l2. rewrite LX in LX2. injection LX2 as <-.
    destruct (known_now E fuel path src CT' [] opened D eq_refl) as (toks3 & ws3 & k3 & _ & _ & _ & KN & p3 & A3 & K3). rewrite A in A3. injection A3 as <-.
    assert (FE2 : (List.length (p_errs p) <= ModelDiag.kept)%nat) by (change ModelDiag.kept with 1024%nat; lia). pose proof (names_defined _ _ _ _ _ A FE2 PS PF) as (E1 & E2).
    pose proof (complete_proposed _ _ _ _ _ _ _ _ X CU) as (p4 & ts4 & A4 & T4 & P4). rewrite A in A4. injection A4 as <-.
    exists (map fst (p_structs p)), (map LemGrammarField.listed (p_enums p)), (fields_of p), ts4. split; [exact T4|]. split; [exact P4|]. split; [apply fields_unknown|]. split; [exact E1|]. split; [exact E2|].
    intros _. subst k3. exact KN.
  - exists structs, enums, fields, ts. split; [exact T|]. split; [exact P|]. split; [exact FU|]. split; [exact D1|]. split; [exact D2|].
    intros AC. apply (none_accepted E fuel path src CT' (d0 :: ds') opened D FEW NI CP) in AC. discriminate.
Qed.

Lemma symbols_outline fs path src uri : sound fuel (env_of S fs) path src -> outlines (env_of S fs) path src uri (session_symbols S fuel fs path src uri).
Proof.
  intros (ds & opened & D & FEW & NI & CP & PS & PF). set (E := env_of S fs) in *. assert (CT' : forall s, text (e_canon E s)) by exact CT.
  destruct (the_analysis E fuel path src CT' ds opened D FEW PF) as (toks & p & LX & A & FE).
  assert (X : exists l, document_symbols E fuel path src = Listed l).
  { unfold document_symbols. rewrite A. assert ((ModelDiag.kept <? List.length (p_errs p))%nat = false) as -> by (change ModelDiag.kept with 1024%nat; apply PeanoNat.Nat.ltb_ge; lia). eauto. }
  destruct X as (l & X). unfold session_symbols. fold E. rewrite X. do 2 eexists. split; [reflexivity|]. split.
  { instantiate (1 := l). clear. induction l as [|((n & k) & ln) l IH]; constructor; [|exact IH]. reflexivity. }
  split; [exact (LemPlace.symbols_places _ _ _ _ _ X PS PF)|].
  intros AC. apply (none_accepted E fuel path src CT' ds opened D FEW NI CP) in AC. pose proof D as D'. rewrite AC in D'.
  destruct (complete_known _ _ _ _ _ CT' D') as (toks2 & ws & k & fields2 & LX2 & MS & FL & FU2 & PR & sy & SY & MF). rewrite X in SY. injection SY as <-.
  exists (SpecGrammar.k_structs k), (SpecGrammar.k_enums k). split; [|exact MF]. exists toks2, ws, k. auto.
Qed.
Lemma text_published fs uri src : sound fuel (env_of S fs) (uri_path uri) src -> publishes (env_of S fs) uri src [diagnosed (server_of S print W fuel) fs uri src].
Proof.
  intros (ds & opened & D & FEW & NI & CP & PS & PF). eexists. split; [reflexivity|]. cbn [server_of v_diagnostics]. unfold session_diagnostics. rewrite D.
  eapply text_problems; eauto.
Qed.

Let V := server_of S print W fuel.
Lemma reaction fs past m : (forall path src, text_asked V fs past m = Some (path, src) -> sound fuel (env_of S fs) path src) -> reacts V fs past m (sends V fs past m).
Proof.
  intros H. destruct m as [id q|u t|u ts t|u|u]; cbn [reacts sends].
  - eexists. split; [reflexivity|]. destruct q; cbn [answer_to]; try exact Logic.I; try reflexivity; cbn [text_asked] in H;
      (destruct (current_text V fs past uri) as [t|]; [|reflexivity]); try (specialize (H _ _ eq_refl)).
    + exact (find_leads fs _ t line character uri H).
    + exact (find_hovers fs _ t line character H).
    + exact (complete_proposes fs _ t line character H).
    + apply format_reformats.
    + exact (symbols_outline fs _ t uri H).
  - apply text_published. apply H. reflexivity.
  - apply text_published. apply H. reflexivity.
  - cbn [text_asked] in H. destruct (file_text V fs u) as [t|]; [|reflexivity]. apply text_published. apply H. reflexivity.
  - reflexivity.
Qed.
Lemma going ms : forall time past, all_sound V fuel time past ms -> goes V time past ms (conversation V time past ms).
Proof.
  induction ms as [|m ms IH]; intros time past A; cbn [conversation]; [constructor|]. destruct A as (A & B). constructor; [now apply reaction|now apply IH].
Qed.
End Server.
