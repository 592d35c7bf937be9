(** What is offered, of the definitions of the schema. *)
From Coq Require Import ZArith Strings.String Lia ZifyBool ZifyNat ZifyN.
From Verif Require LemComplete LemPlace LemSite LemOutline.
From Verif Require Import Base SpecBytes LemBase ModelFloat SpecVM ModelVM ModelImage ModelText SpecText LemText ModelNames ModelParse ModelSchema ModelDiag ModelComplete SpecParse SpecPacket SpecMessage SpecSource
  LemStr LemLex LemParse LemSource LemAccept LemCompile LemEnds LemErr SpecGrammar LemGrammar LemGrammarField LemGrammarStmt LemGrammarFile SpecDiag SpecComplete.
Local Open Scope N_scope.

Definition front_scan (ts : list token) : scan := fold_left scan_token ts scan0.
Lemma deco_iff ts d : (exists k, c_deco (front_scan ts) = Some (d, k)) <-> arguments_of d ts.
Proof.
  unfold arguments_of. rewrite <- LemComplete.scan_open; try discriminate; try reflexivity; try (cbn; intuition discriminate).
  destruct (LemComplete.scan_both ts) as (S & _). unfold LemComplete.scan_deco in S. rewrite <- S. reflexivity.
Qed.
Lemma body_iff ts d : (exists k, c_struct (front_scan ts) = Some (d, k)) <-> body_of d ts.
Proof.
  unfold body_of. rewrite <- LemComplete.scan_open; try discriminate; try reflexivity; try (cbn; intuition discriminate).
  destruct (LemComplete.scan_both ts) as (_ & S). unfold LemComplete.scan_body in S. rewrite <- S. reflexivity.
Qed.
Lemma dot_iff ts n : (is_kind TDot (c_prev (front_scan ts)) && is_kind TIdentifier (c_prev2 (front_scan ts)) = true /\ ttext (c_prev2 (front_scan ts)) = n) <-> behind_dot n ts.
Proof.
  assert (P : (c_prev (front_scan ts), c_prev2 (front_scan ts)) = LemComplete.prevs (rev ts)).
  { destruct (LemComplete.scan_both ts) as (S & _). unfold LemComplete.scan_deco in S. rewrite <- (LemComplete.scan_prevs [TAt] TLparen TRparen ts eq_refl eq_refl), <- S. reflexivity. }
  rewrite Bool.andb_true_iff, !LemComplete.is_kind_iff. unfold behind_dot. split.
  - intros ((A & B) & C). destruct (rev ts) as [|d [|i r]] eqn:R; injection P as P1 P2; [rewrite P1 in A; discriminate|rewrite P2 in B; discriminate|].
    rewrite P1, P2 in *. exists (rev r), i, d. split; [|auto]. apply (f_equal (@rev _)) in R. rewrite rev_involutive in R. rewrite R. cbn [rev]. rewrite <- app_assoc. reflexivity.
  - intros (before & i & d & -> & A & B & C). rewrite rev_app_distr in P. cbn in P. injection P as -> ->. auto.
Qed.

Definition fields_of (p : pst) (s : list N) : list (list N) :=
  match find_struct (p_structs p) s with Some code => code_fields (p_strs p) (List.length code) code | None => [] end.
Lemma fields_unknown p s : ~ In s (map fst (p_structs p)) -> fields_of p s = [].
Proof. intros NI. unfold fields_of. destruct (find_struct (p_structs p) s) eqn:F; [|reflexivity]. exfalso. apply NI. eapply struct_found; eauto. Qed.
Lemma offers_proposed p ts : proposed (map fst (p_structs p)) (map listed (p_enums p)) (fields_of p) ts (offers p (front_scan ts)).
Proof.
  unfold offers. set (fs := match c_struct (front_scan ts) with Some (n, _) => _ | None => _ end).
  assert (FS : exists l, fields_in (fields_of p) ts l /\ fs = of_kind field l).
  { unfold fs. destruct (c_struct (front_scan ts)) as [(n, k)|] eqn:C.
    - exists (fields_of p n). split; [constructor; apply body_iff; eauto|]. unfold fields_of. destruct (find_struct (p_structs p) n); reflexivity.
    - exists []. split; [constructor|reflexivity]. intros s B. apply body_iff in B as (k & B). congruence. }
  destruct FS as (l & FI & FE). rewrite FE. clear fs FE.
  set (en := if is_kind TDot (c_prev (front_scan ts)) && is_kind TIdentifier (c_prev2 (front_scan ts)) then find_enum (p_enums p) (ttext (c_prev2 (front_scan ts))) else None). destruct en as [e|] eqn:EN.
  - unfold en in EN. destruct (is_kind TDot _ && _) eqn:D; [|discriminate]. apply enum_found in EN as (I & N).
    replace (map (fun m => (fst m, kind_member)) (en_vals e)) with (of_kind enum_member (map fst (m_members (listed e)))) by (unfold of_kind; rewrite map_map; reflexivity).
    constructor; [exact I|]. apply dot_iff. split; [exact D|]. cbn. congruence.
  - assert (ND : forall e, In e (map listed (p_enums p)) -> ~ behind_dot (m_name e) ts).
    { intros e I B. apply dot_iff in B as (D & N). unfold en in EN. rewrite D in EN. apply enum_unfound in EN. apply EN. rewrite N. now apply in_map. }
    clear en EN.
    assert (IS : forall w, (match c_deco (front_scan ts) with Some (d, _) => same_text d w | None => false end) = true <-> arguments_of w ts).
    { intros w. rewrite <- deco_iff. destruct (c_deco (front_scan ts)) as [(d, k)|]; [|split; [discriminate|intros (k & X); discriminate]].
      rewrite same_text_spec. split; [intros ->; eauto|]. intros (k' & X). congruence. }
    destruct (match c_deco (front_scan ts) with Some (d, _) => same_text d (chars "expr"%string) | None => false end) eqn:XE.
    { assert (MF : map (fun f => (chars f, kind_function)) function_items = of_kind function math_functions) by reflexivity. rewrite MF.
      eapply pp_expr; [exact ND|now apply IS|exact FI]. }
    destruct (match c_deco (front_scan ts) with Some (d, _) => same_text d (chars "count"%string) | None => false end) eqn:XC.
    { cbn [orb]. eapply (pp_count _ _ _ _ (chars "count"%string)); [exact ND|now left|now apply IS|exact FI]. }
    destruct (match c_deco (front_scan ts) with Some (d, _) => same_text d (chars "len"%string) | None => false end) eqn:XL.
    { cbn [orb]. eapply (pp_count _ _ _ _ (chars "len"%string)); [exact ND|right; now left|now apply IS|exact FI]. }
    cbn [orb].
    assert (W : forall (a b : list (list N * N)), a = of_kind keyword statement_words -> b = of_kind function decorator_words ->
      proposed (map fst (p_structs p)) (map listed (p_enums p)) (fields_of p) ts (a ++ b ++ map (fun d => (fst d, kind_struct)) (p_structs p) ++ map (fun e => (en_name e, kind_enum)) (p_enums p))).
    { intros a b -> ->.
      replace (map (fun d => (fst d, kind_struct)) (p_structs p)) with (of_kind class (map fst (p_structs p))) by (unfold of_kind; now rewrite map_map).
      replace (map (fun e => (en_name e, kind_enum)) (p_enums p)) with (of_kind enumeration (map m_name (map listed (p_enums p)))) by (unfold of_kind; now rewrite !map_map).
      apply pp_other; [exact ND|]. intros d [<-|[<-|[<-|[]]]] A; apply IS in A; congruence. }
    apply W; reflexivity.
Qed.
Lemma complete_proposed E fuel path src line ch l front : complete E fuel path src line ch = Offered l -> cursor_at src front line ch ->
  exists p ts, analyse E fuel path src = POk tt p /\ tokens_of 0 src ts /\ proposed (map fst (p_structs p)) (map listed (p_enums p)) (fields_of p) (in_front front ts) l.
Proof.
  unfold complete. destruct (lex src) as [toks|] eqn:LX; [|destruct (analyse E fuel path src); discriminate]. destruct (analyse E fuel path src) as [[] p| |]; try discriminate.
  destruct (_ <? _)%nat; [discriminate|]. intros X C. injection X as <-. exists p, toks. split; [reflexivity|]. pose proof (LemPlace.lex_tokens _ _ LX) as T. split; [exact T|].
  rewrite (LemComplete.cursor_eq _ _ _ _ C). rewrite (LemComplete.scan_front _ _ _ _ T).
  2:{ destruct C as ((post & ->) & _). rewrite lenN_app. lia. }
  apply offers_proposed.
Qed.

(** ** A document without errors *)
Lemma analyse_known E fuel path src p : (forall s, text (e_canon E s)) -> analyse E fuel path src = POk tt p -> p_err p = false ->
  exists toks ws, lex src = Some toks /\ map shown toks = ws ++ [mark TEof] /\
    file E path {| k_structs := []; k_enums := []; k_files := []; k_packets := 0; k_packed := false |} ws (known_of p).
Proof.
  intros CT H E0. unfold analyse in H. destruct (lex src) as [toks|] eqn:LX; [|discriminate]. exists toks, (upto toks).
  destruct (lexed _ _ LX) as (XE & XT & XW). split; [reflexivity|]. split; [exact XW|]. bnd H. destruct (advance_stream _ _ _ M ltac:(assumption) XE XT) as (G & A & _ & S).
  cbn [editor0 p_toks] in S.
  assert (T : top r). { eapply top_att; [exact A|]. repeat split; cbn; auto. }
  destruct (proj1 (all_filed E fuel CT) _ _ _ H E0 G T) as (k & MV & FL & _). rewrite S, (path_att _ _ A), (known_att _ _ A) in FL. cbn in FL.
  now rewrite (known_moved _ _ _ MV).
Qed.
Lemma shown_none E fuel path src opened : diagnose E fuel path src = Shown [] opened -> exists p, analyse E fuel path src = POk tt p /\ p_err p = false.
Proof.
  unfold diagnose. destruct (analyse E fuel path src) as [[] p| |] eqn:A; try discriminate. intros X. exists p. split; [reflexivity|]. injection X as X _.
  destruct (LemSite.analyse_ok _ _ _ _ _ A) as (_ & B & _). destruct (p_err p); [|reflexivity]. exfalso. apply (proj1 B eq_refl).
  unfold diagnostics in X. apply map_eq_nil in X. destruct (rev (p_errs p)) as [|x r] eqn:R; [|discriminate]. apply (f_equal (@rev _)) in R. now rewrite rev_involutive in R.
Qed.
Definition named (x : list N * N * Z) : list N * N := fst x.
Lemma symbols_named E fuel path src p : analyse E fuel path src = POk tt p ->
  map named (symbols p) = of_kind 23 (map fst (p_structs p)) ++ of_kind 10 (map m_name (map listed (p_enums p))).
Proof.
  intros A. destruct (LemOutline.analyse_names _ _ _ _ _ A) as (S1 & S2). unfold LemOutline.names in *.
  assert (X : map m_name (map listed (p_enums p)) = map en_name (p_enums p)) by (rewrite map_map; reflexivity). rewrite X, <- S1, <- S2.
  unfold symbols, of_kind. rewrite map_app, !map_map. reflexivity.
Qed.
Lemma names_defined E fuel path src p : analyse E fuel path src = POk tt p -> (List.length (p_errs p) <= ModelDiag.kept)%nat -> plain src -> (forall f text, e_read E f = Some text -> plain text) ->
  (forall s, In s (map fst (p_structs p)) -> exists file text line, (file = path /\ text = src \/ e_read E file = Some text) /\ defines text TStruct s line) /\
  (forall e, In e (map listed (p_enums p)) -> exists file text line, (file = path /\ text = src \/ e_read E file = Some text) /\ defines text TEnum (m_name e) line).
Proof.
  intros A L PS PF. assert (D : document_symbols E fuel path src = Listed (symbols p)).
  { unfold document_symbols. rewrite A. destruct (ModelDiag.kept <? _)%nat eqn:K; [lia|reflexivity]. }
  pose proof (LemPlace.symbols_places _ _ _ _ _ D PS PF) as F. rewrite Forall_forall in F. pose proof (symbols_named _ _ _ _ _ A) as SN.
  assert (G : forall n k, In (n, k) (of_kind 23 (map fst (p_structs p)) ++ of_kind 10 (map m_name (map listed (p_enums p)))) ->
    exists file text line, (file = path /\ text = src \/ e_read E file = Some text) /\ (k = 23 /\ defines text TStruct n line \/ k = 10 /\ defines text TEnum n line)).
  { intros n k I. rewrite <- SN in I. apply in_map_iff in I as (((n', k') & line) & X & I). injection X as -> ->. specialize (F _ I). cbn in F. destruct F as (file & text & SF & Y). eauto 6. }
  split; intros x I.
  - destruct (G x 23) as (f & t & line & SF & [(_ & D1)|(X & _)]); [apply in_or_app; left; unfold of_kind; apply in_map_iff; eauto|eauto 6|discriminate].
  - destruct (G (m_name x) 10) as (f & t & line & SF & [(X & _)|(_ & D1)]); [apply in_or_app; right; unfold of_kind; apply in_map_iff; exists (m_name x); split; [reflexivity|]; now apply in_map|discriminate|eauto 6].
Qed.
Lemma complete_any E fuel path src line ch l front : complete E fuel path src line ch = Offered l -> cursor_at src front line ch ->
  plain src -> (forall f text, e_read E f = Some text -> plain text) ->
  exists structs enums fields ts, tokens_of 0 src ts /\ proposed structs enums fields (in_front front ts) l /\
    (forall s, In s structs -> exists file text n, (file = path /\ text = src \/ e_read E file = Some text) /\ defines text TStruct s n) /\
    (forall e, In e enums -> exists file text n, (file = path /\ text = src \/ e_read E file = Some text) /\ defines text TEnum (m_name e) n) /\
    (forall s, ~ In s structs -> fields s = []).
Proof.
  intros X C PS PF. destruct (complete_proposed _ _ _ _ _ _ _ _ X C) as (p & ts & A & T & P). exists (map fst (p_structs p)), (map listed (p_enums p)), (fields_of p), ts.
  split; [exact T|]. split; [exact P|]. unfold complete in X. rewrite A in X. destruct (lex src); [|discriminate]. destruct (_ <? _)%nat eqn:K; [discriminate|].
  destruct (names_defined _ _ _ _ _ A ltac:(lia) PS PF) as (D1 & D2). split; [exact D1|]. split; [exact D2|]. apply fields_unknown.
Qed.
Lemma complete_known E fuel path src opened : (forall s, text (e_canon E s)) -> diagnose E fuel path src = Shown [] opened ->
  exists toks ws k fields, lex src = Some toks /\ map shown toks = ws ++ [mark TEof] /\
    file E path {| k_structs := []; k_enums := []; k_files := []; k_packets := 0; k_packed := false |} ws k /\
    (forall s, ~ In s (k_structs k) -> fields s = []) /\
    (forall front line ch, cursor_at src front line ch -> exists l, complete E fuel path src line ch = Offered l /\
       proposed (k_structs k) (k_enums k) fields (in_front front toks) l) /\
    exists symbols, document_symbols E fuel path src = Listed symbols /\
      map fst symbols = of_kind 23 (k_structs k) ++ of_kind 10 (map m_name (k_enums k)).
Proof.
  intros CT D. destruct (shown_none _ _ _ _ _ D) as (p & A & E0). destruct (analyse_known _ _ _ _ _ CT A E0) as (toks & ws & LX & MS & FL).
  assert (NE : p_errs p = []). { destruct (LemSite.analyse_ok _ _ _ _ _ A) as (_ & B & _). destruct (p_errs p); [reflexivity|]. assert (p_err p = true) by (apply B; discriminate). congruence. }
  exists toks, ws, (known_of p), (fields_of p). split; [exact LX|]. split; [exact MS|]. split; [exact FL|]. split; [apply fields_unknown|]. split.
  - intros front line ch C. assert (X : exists l, complete E fuel path src line ch = Offered l) by (unfold complete; rewrite LX, A, NE; cbn; eauto).
    destruct X as (l & X). exists l. split; [exact X|]. destruct (complete_proposed _ _ _ _ _ _ _ _ X C) as (p' & ts & A' & T & P). rewrite A in A'. injection A' as <-.
    unfold complete in X. rewrite LX, A, NE in X. cbn in X. injection X as <-.
    pose proof (LemPlace.lex_tokens _ _ LX) as T'. rewrite (LemComplete.cursor_eq _ _ _ _ C), (LemComplete.scan_front _ _ _ _ T').
    2:{ destruct C as ((post & ->) & _). rewrite lenN_app. lia. }
    apply offers_proposed.
  - exists (symbols p). split; [unfold document_symbols; rewrite A, NE; reflexivity|]. exact (symbols_named _ _ _ _ _ A).
Qed.
