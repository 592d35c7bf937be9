(** The lexer. *)
From Verif Require Import Base LemBase ModelVM SpecVM ModelText SpecText LemPunct.
Ltac Zify.zify_post_hook ::= Z.div_mod_to_equations.

Lemma firstn_len_app {A} (a b : list A) n : n = length a -> firstn n (a ++ b) = a.
Proof. intros ->. now rewrite firstn_app, firstn_all, Nat.sub_diag, app_nil_r. Qed.
Lemma skipn_len_app {A} (a b : list A) n : n = length a -> skipn n (a ++ b) = b.
Proof. intros ->. now rewrite skipn_app, skipn_all, Nat.sub_diag. Qed.

Lemma digit_bound c : is_digit c = true -> 48 <= c <= 57.
Proof. unfold is_digit. intros E. lia. Qed.
Lemma digit0 : is_digit 0 = false. Proof. reflexivity. Qed.
Lemma hex0 : is_hex 0 = false. Proof. reflexivity. Qed.
Lemma alnum0 : is_alnum 0 = false. Proof. reflexivity. Qed.

Lemma all_no_nl p s : (forall c, p c = true -> c <> 10) -> all p s -> ~ In 10 s.
Proof. intros H F I. apply (proj1 (Forall_forall _ _) F) in I. now apply (H 10). Qed.

Lemma number_spec c r : is_digit c = true \/ (c = 45 /\ is_digit (next_char r) = true) ->
  exists s r', c :: r = s ++ r' /\ length s = number_len c r /\ number_text s r' /\ ~ In 10 s.
Proof.
  intros D. unfold number_len. rewrite !peek_next, !peek_next2.
  assert (HX : forall n, (n =? 120) || (n =? 88) = true <-> (n = 120 \/ n = 88)).
  { intros n. destruct (N.eqb_spec n 120), (N.eqb_spec n 88); cbn; split; intros; try tauto; try discriminate; destruct H; contradiction. }
  assert (HN : forall c, is_hex c = true -> c <> 10) by (intros x E ->; discriminate E).
  assert (DN : forall c, is_digit c = true -> c <> 10) by (intros x E ->; discriminate E).
  cbv zeta.
  destruct ((c =? 48) && ((next_char r =? 120) || (next_char r =? 88))) eqn:E1.
  { apply andb_prop in E1. destruct E1 as [E1 E2]. apply N.eqb_eq in E1. subst c. apply HX in E2.
    destruct r as [|x r]; [cbn in E2; destruct E2; discriminate|]. cbn [next_char] in E2. cbn [skipn].
    pose proof (span_next is_hex r hex0) as S. destruct (span is_hex r) as [h b]. destruct S as (-> & A & B). cbn [fst].
    exists (48 :: x :: h), b. split; auto. split; [reflexivity|]. split; [apply (num_hex [] x h b); auto|].
    intros [X|[X|X]]; [discriminate|destruct E2; congruence|]. now apply (all_no_nl is_hex h). }
  destruct ((c =? 45) && (next_char r =? 48) && ((next_char (tl r) =? 120) || (next_char (tl r) =? 88))) eqn:E2.
  { apply andb_prop in E2. destruct E2 as [E2 E3]. apply andb_prop in E2. destruct E2 as [E2 E4].
    apply N.eqb_eq in E2, E4. subst c. apply HX in E3.
    destruct r as [|z r]; [discriminate E4|]. cbn [next_char tl] in *. subst z.
    destruct r as [|x r]; [cbn in E3; destruct E3; discriminate|]. cbn [next_char tl skipn] in *.
    pose proof (span_next is_hex r hex0) as S. destruct (span is_hex r) as [h b]. destruct S as (-> & A & B). cbn [fst].
    exists (45 :: 48 :: x :: h), b. split; auto. split; [reflexivity|]. split; [apply (num_hex [45] x h b); auto|].
    intros [X|[X|[X|X]]]; [discriminate|discriminate|destruct E3; congruence|]. now apply (all_no_nl is_hex h). }
  pose proof (span_next is_digit r digit0) as S. destruct (span is_digit r) as [a b] eqn:SP. destruct S as (-> & A & B).
  rewrite !peek_next, !peek_next2.
  assert (NOX : forall m d a', c :: a = m ++ d :: a' -> (m = [] \/ m = [45]) -> ~ (d = 48 /\ a' = [] /\ (next_char b = 120 \/ next_char b = 88))).
  { intros m d a' EQ M (-> & -> & X). destruct M as [->| ->]; cbn in EQ.
    - injection EQ as -> ->. cbn [app] in E1. rewrite (proj2 (HX _) X) in E1. discriminate E1.
    - injection EQ as -> ->. cbn [app next_char tl] in E2. rewrite (proj2 (HX _) X) in E2. discriminate E2. }
  assert (SPLIT : exists m d a', c :: a = m ++ d :: a' /\ (m = [] \/ m = [45]) /\ is_digit d = true /\ all is_digit a').
  { destruct D as [D|[-> D]]; [exists [], c, a; auto|].
    destruct a as [|d a]; [cbn [app] in D; congruence|]. inversion A; subst. exists [45], d, a. auto. }
  destruct SPLIT as (m & d & a' & EQ & M & DD & A').
  assert (NL : ~ In 10 (c :: a)).
  { intros [X|X]; [subst c; destruct D as [D|[D _]]; discriminate D|]. now apply (all_no_nl is_digit a). }
  destruct ((next_char b =? 46) && is_digit (next_char (tl b))) eqn:E3.
  - apply andb_prop in E3. destruct E3 as [E3 E4]. apply N.eqb_eq in E3.
    destruct b as [|z b]; [discriminate E3|]. cbn [next_char tl skipn] in *. subst z.
    pose proof (span_next is_digit b digit0) as S. destruct (span is_digit b) as [g q]. destruct S as (-> & G & Q). cbn [fst].
    destruct g as [|f g]; [cbn [app] in E4; congruence|]. inversion G; subst.
    exists ((c :: a) ++ 46 :: f :: g), q. split; [cbn; now rewrite <- app_assoc|].
    split; [rewrite app_length; cbn [length]; lia|]. split.
    + rewrite EQ, <- app_assoc. cbn [app]. apply num_frac; auto.
    + intros I. apply in_app_or in I. destruct I as [I|[I|I]]; [auto|discriminate|]. now apply (all_no_nl is_digit (f :: g)).
  - exists (c :: a), b. split; auto. split; [reflexivity|]. split; auto. rewrite EQ. apply num_int; auto.
    + intros [X Y]. rewrite X, Y in E3. discriminate E3.
    + exact (NOX m d a' EQ M).
Qed.

Lemma scan_spec c r pos line : ~ In c [32; 13; 9; 10] -> (c = 47 -> next_char r <> 47 /\ next_char r <> 42) ->
  let (t, n) := scan c r pos line in
  exists before after r', c :: r = before ++ ttext t ++ after ++ r' /\ skipn n (c :: r) = r' /\
    piece (tk t) before (ttext t) after r' /\ tpos t = pos + lenN before /\ tline t = line /\ tk t <> TEof /\
    N.of_nat n = lenN before + lenN (ttext t) + lenN after /\ (0 < n)%nat /\
    (newlines (before ++ ttext t ++ after) = 0 \/ tk t = TString) /\ newlines before = 0.
Proof.
  intros W NC. unfold scan. cbv zeta.
  destruct (N.eqb_spec c 34) as [->|N34].
  { pose proof (span_spec (fun x => negb (x =? 34)) r) as S. destruct (span (fun x => negb (x =? 34)) r) as [a b].
    destruct S as (-> & A & B).
    assert (NA : ~ In 34 a) by (intros I; apply (proj1 (Forall_forall _ _) A) in I; discriminate I).
    destruct b as [|x b].
    - exists [34], [], []. cbn [tk ttext tpos tline]. rewrite !app_nil_r. split; [reflexivity|].
      split; [change (34 :: a) with ([34] ++ a); rewrite <- (app_nil_r ([34] ++ a)) at 1; apply skipn_len_app; reflexivity|].
      split; [apply pc_string_open; auto|]. split; [reflexivity|]. split; [reflexivity|]. split; [discriminate|].
      split; [rewrite lenN_cons, !lenN_nil; unfold lenN; lia|]. split; [lia|]. split; [right; reflexivity|reflexivity].
    - destruct B as [B|B]; [discriminate|]. cbn [next_char] in B. apply negb_false_iff, N.eqb_eq in B. subst x.
      exists [34], [34], b. cbn [tk ttext tpos tline]. split; [reflexivity|].
      split; [change (34 :: a ++ 34 :: b) with ([34] ++ a ++ [34] ++ b); rewrite !app_assoc; apply skipn_len_app; rewrite !app_length; cbn; lia|].
      split; [apply pc_string; auto|]. split; [reflexivity|]. split; [reflexivity|]. split; [discriminate|].
      split; [rewrite !lenN_cons, lenN_nil; unfold lenN; lia|]. split; [lia|]. split; [right; reflexivity|reflexivity]. }
  assert (PLAIN : forall k n s r', c :: r = s ++ r' -> length s = n -> spelled k s r' -> k <> TEof -> ~ In 10 s -> (0 < n)%nat ->
    exists before after r', c :: r = before ++ firstn n (c :: r) ++ after ++ r' /\ skipn n (c :: r) = r' /\
    piece k before (firstn n (c :: r)) after r' /\ pos = pos + lenN before /\ line = line /\ k <> TEof /\
    N.of_nat n = lenN before + lenN (firstn n (c :: r)) + lenN after /\ (0 < n)%nat /\
    (newlines (before ++ firstn n (c :: r) ++ after) = 0 \/ k = TString) /\ newlines before = 0).
  { intros k n s r' E L SP KE NL PZ. exists [], [], r'. rewrite E. rewrite firstn_len_app, skipn_len_app by auto. cbn [app].
    split; auto. split; auto. split; [now constructor|]. split; [rewrite lenN_nil; lia|]. split; auto. split; auto.
    split; [rewrite lenN_nil; unfold lenN; lia|]. split; [auto|]. split; [|reflexivity].
    left. rewrite app_nil_r. now apply newlines_none. }
  rewrite peek_next. destruct (punct c (next_char r)) as [[k n]|] eqn:P.
  { destruct (punct_spec c r k n P NC) as (s & r' & E & L & SP & KE & NL). eapply PLAIN; eauto. destruct n; [|lia].
    destruct s; [|discriminate L]. inversion SP; subst; try (match goal with H : In _ symbols |- _ => cbn in H; intuition discriminate end).
    - match goal with H : In _ words |- _ => cbn in H; intuition discriminate end.
    - match goal with H : number_text _ _ |- _ => inversion H; destruct m; discriminate end. }
  destruct (is_alpha c) eqn:AL.
  { pose proof (span_next is_alnum r alnum0) as S. destruct (span is_alnum r) as [a b]. destruct S as (-> & A & B). cbn [fst].
    assert (F : firstn (S (length a)) (c :: a ++ b) = c :: a) by (apply (firstn_len_app (c :: a) b); reflexivity).
    assert (NL : ~ In 10 (c :: a)).
    { intros [X|X]; [subst c; discriminate AL|]. apply (all_no_nl is_alnum a); auto. intros y E ->. discriminate E. }
    destruct (keyword_spec (c :: a)) as [K|[K NW]].
    - eapply (PLAIN _ _ (c :: a) b); [reflexivity|reflexivity| |  |exact NL|lia].
      + rewrite F. apply sp_word; auto.
      + rewrite F. intros X. cbn [tk] in X. rewrite X in K. cbn in K. intuition discriminate.
    - assert (K' : check_keyword (firstn (S (length a)) (c :: a ++ b)) = TIdentifier) by (rewrite F; exact K).
      rewrite K'. apply (PLAIN _ _ (c :: a) b); [reflexivity|reflexivity|apply sp_name; auto|discriminate|exact NL|lia]. }
  destruct (is_digit c || ((c =? 45) && is_digit (next_char r))) eqn:DG.
  { destruct (number_spec c r) as (s & r' & E & L & NT & NL).
    { apply orb_prop in DG. destruct DG as [DG|DG]; [auto|]. apply andb_prop in DG. destruct DG as [D1 D2].
      apply N.eqb_eq in D1. auto. }
    eapply PLAIN; eauto; [now constructor|discriminate|]. rewrite <- L. destruct s; [|cbn; lia].
    inversion NT; destruct m; discriminate. }
  apply orb_false_iff in DG. destruct DG as [D1 D2].
  eapply (PLAIN _ _ [c] r); [reflexivity|reflexivity| |discriminate| |lia].
  - apply sp_error.
    + unfold is_alnum. now rewrite AL, D1.
    + cbn in W |- *. intuition congruence.
    + intros k I. cbn in I.
      repeat (destruct I as [I|I]; [try discriminate I; injection I; intros; subst c; cbn [punct N.eqb Pos.eqb andb] in P, D2;
        try (rewrite D2 in P); discriminate P|]). exact I.
  - cbn in W |- *. intuition congruence.
Qed.

(** ** The next token *)
Definition nl_gap (t : token) (before : list N) : N := newlines (before ++ ttext t).

Lemma next_spec fuel : forall l pos line, (length l < fuel)%nat ->
  exists t r pos' line', lexer_next fuel l pos line = Some (t, r, pos', line') /\
  ((tk t = TEof /\ r = [] /\ blank l [] /\ ttext t = [] /\ tpos t = pos + lenN l /\ tline t = line + newlines l) \/
   (tk t <> TEof /\ exists g before after, l = g ++ before ++ ttext t ++ after ++ r /\ blank g (before ++ ttext t ++ after ++ r) /\
    piece (tk t) before (ttext t) after r /\ tpos t = pos + lenN g + lenN before /\
    pos' = pos + lenN g + lenN before + lenN (ttext t) + lenN after /\ (length r < length l)%nat /\
    tline t = line + newlines g /\ line' = tline t /\ newlines before = 0 /\
    (newlines (before ++ ttext t ++ after) = 0 \/ tk t = TString))).
Proof.
  induction fuel as [|fuel IH]; intros l pos line F; [lia|]. cbn [lexer_next].
  destruct l as [|c r].
  { do 4 eexists. split; [reflexivity|]. left. cbn [tk ttext tpos tline]. rewrite lenN_nil. change (newlines []) with 0.
    repeat (split; [first [reflexivity|constructor|lia]|]). lia. }
  cbn [length] in F.
  assert (PRE : forall g0 l' pos0 line0, c :: r = g0 ++ l' -> (length l' < fuel)%nat -> (0 < length g0)%nat ->
     (forall g z, l' = g ++ z -> blank g z -> blank (g0 ++ g) z) ->
     pos0 = pos + lenN g0 -> line0 = line + newlines g0 ->
     exists t r0 pos' line', lexer_next fuel l' pos0 line0 = Some (t, r0, pos', line') /\
     ((tk t = TEof /\ r0 = [] /\ blank (c :: r) [] /\ ttext t = [] /\ tpos t = pos + lenN (c :: r) /\ tline t = line + newlines (c :: r)) \/
      (tk t <> TEof /\ exists g before after, c :: r = g ++ before ++ ttext t ++ after ++ r0 /\ blank g (before ++ ttext t ++ after ++ r0) /\
       piece (tk t) before (ttext t) after r0 /\ tpos t = pos + lenN g + lenN before /\
       pos' = pos + lenN g + lenN before + lenN (ttext t) + lenN after /\ (length r0 < length (c :: r))%nat /\
       tline t = line + newlines g /\ line' = tline t /\ newlines before = 0 /\
       (newlines (before ++ ttext t ++ after) = 0 \/ tk t = TString)))).
  { intros g0 l' pos0 line0 E L LG BL -> ->. destruct (IH l' (pos + lenN g0) (line + newlines g0) L) as (t & r0 & pos' & line' & EQ & R).
    exists t, r0, pos', line'. split; [exact EQ|]. rewrite E. rewrite !lenN_app, newlines_app.
    destruct R as [(A1 & A2 & A3 & A4 & A5 & A6)|(A1 & g & before & after & A2 & A3 & A4 & A5 & A6 & A7 & A8 & A9 & A10 & A11)].
    - left. split; auto. split; auto. split; [apply BL; [now rewrite app_nil_r|auto]|]. split; auto. split; lia.
    - right. split; auto. exists (g0 ++ g), before, after. split; [rewrite A2 at 1; now rewrite <- app_assoc|].
      split; [apply BL; auto|]. split; auto. rewrite !lenN_app, newlines_app. split; [lia|]. split; [lia|].
      split; [rewrite app_length; lia|]. split; [lia|]. auto. }
  destruct ((c =? 32) || (c =? 13) || (c =? 9)) eqn:W.
  { apply (PRE [c] r); [reflexivity|lia|cbn; lia| |rewrite lenN_cons, lenN_nil; lia|].
    - intros g z _ B. apply (b_ws c g z); auto. cbn. lia.
    - rewrite newlines_cons. change (newlines []) with 0. destruct (N.eqb_spec c 10); lia. }
  destruct (N.eqb_spec c 10) as [->|N10].
  { apply (PRE [10] r); [reflexivity|lia|cbn; lia| |rewrite lenN_cons, lenN_nil; lia|].
    - intros g z _ B. apply (b_ws 10 g z); auto. cbn. tauto.
    - reflexivity. }
  rewrite !peek_next, !peek_next2.
  destruct ((c =? 47) && (next_char r =? 47) && (next_char (tl r) =? 47)) eqn:DOC.
  { apply andb_prop in DOC. destruct DOC as [D1 D3]. apply andb_prop in D1. destruct D1 as [D1 D2].
    apply N.eqb_eq in D1, D2, D3. subst c. destruct r as [|x r]; [discriminate D2|]. cbn [next_char tl] in *. subst x.
    destruct r as [|x r]; [discriminate D3|]. cbn [next_char] in D3. subst x. cbn [skipn].
    pose proof (span_spec (fun x => negb (x =? 10) && negb (x =? 13)) r) as S.
    destruct (span (fun x => negb (x =? 10) && negb (x =? 13)) r) as [a b]. destruct S as (-> & A & B).
    do 4 eexists. split; [reflexivity|]. right. cbn [tk ttext tpos tline]. split; [discriminate|].
    assert (NA : forall x, In x a -> x <> 10 /\ x <> 13).
    { intros x I. apply (proj1 (Forall_forall _ _) A) in I. destruct (N.eqb_spec x 10), (N.eqb_spec x 13); cbn in I; auto; discriminate. }
    exists [], [47; 47; 47], []. split; [reflexivity|]. split; [constructor|]. split.
    - apply pc_doc.
      + intros I. now destruct (NA _ I).
      + intros I. now destruct (NA _ I).
      + destruct B as [->|B]; [cbn; auto|]. destruct (N.eqb_spec (next_char b) 10) as [->|]; [cbn; auto|].
        destruct (N.eqb_spec (next_char b) 13) as [->|]; [cbn; auto|discriminate].
    - rewrite lenN_nil. change (lenN [47; 47; 47]) with 3. split; [lia|]. split; [lia|]. split; [cbn; rewrite app_length; lia|].
      split; [change (newlines []) with 0; lia|]. split; [reflexivity|]. split; [reflexivity|]. left.
      rewrite app_nil_r. cbn [app]. rewrite !newlines_cons. cbn [N.eqb Pos.eqb]. rewrite newlines_none; [reflexivity|].
      intros I. now destruct (NA _ I). }
  destruct ((c =? 47) && (next_char r =? 47)) eqn:LN.
  { apply andb_prop in LN. destruct LN as [D1 D2]. rewrite ?D1, ?D2 in DOC. cbn [andb] in DOC.
    apply N.eqb_eq in D1, D2. subst c. destruct r as [|x r]; [discriminate D2|]. cbn [next_char tl] in *. subst x.
    cbn [span]. cbn [N.eqb Pos.eqb negb].
    pose proof (span_spec (fun x => negb (x =? 10)) r) as S. destruct (span (fun x => negb (x =? 10)) r) as [a b]. destruct S as (-> & A & B).
    assert (NA : ~ In 10 a).
    { intros I. apply (proj1 (Forall_forall _ _) A) in I. discriminate I. }
    apply (PRE (47 :: 47 :: a) b).
    - reflexivity.
    - cbn [length] in F. rewrite app_length in F. lia.
    - cbn; lia.
    - intros g z E BL. cbn [app]. apply b_line; auto.
      + intros X. destruct a as [|x a]; [discriminate X|]. cbn in X. subst x. discriminate DOC.
      + rewrite <- E. destruct B as [->|B]; [cbn; auto|]. apply negb_false_iff, N.eqb_eq in B. rewrite B. cbn; auto.
    - reflexivity.
    - rewrite !newlines_cons. cbn [N.eqb Pos.eqb]. rewrite newlines_none by auto. lia. }
  destruct ((c =? 47) && (next_char r =? 42)) eqn:BC.
  { apply andb_prop in BC. destruct BC as [D1 D2]. apply N.eqb_eq in D1, D2. subst c.
    destruct r as [|x r]; [discriminate D2|]. cbn [next_char tl] in *. subst x.
    pose proof (skip_block_spec r (pos + 2) line) as S. destruct (skip_block r (pos + 2) line) as [[b pos0] line0].
    destruct S as [(t & -> & A & -> & ->)|(-> & A & -> & ->)].
    - apply (PRE (47 :: 42 :: t ++ [42; 47]) b).
      + cbn. now rewrite <- app_assoc.
      + cbn [length] in F. rewrite !app_length in F. cbn [length] in F. lia.
      + cbn; lia.
      + intros g z E BL. cbn [app]. rewrite <- app_assoc. now apply b_block.
      + rewrite !lenN_cons, lenN_app. change (lenN [42; 47]) with 2. lia.
      + rewrite !newlines_cons, newlines_app. cbn [N.eqb Pos.eqb]. change (newlines [42; 47]) with 0. lia.
    - apply (PRE (47 :: 42 :: r) []).
      + now rewrite app_nil_r.
      + cbn [length] in *. lia.
      + cbn; lia.
      + intros g z E BL. symmetry in E. apply app_eq_nil in E. destruct E as [-> ->]. rewrite app_nil_r. now apply b_open.
      + rewrite !lenN_cons. lia.
      + rewrite !newlines_cons. cbn [N.eqb Pos.eqb]. lia. }
  assert (WS : ~ In c [32; 13; 9; 10]) by (cbn; lia).
  assert (NC : c = 47 -> next_char r <> 47 /\ next_char r <> 42).
  { intros ->. cbn [N.eqb Pos.eqb andb] in LN, BC. split; intros X; rewrite X in *; discriminate. }
  pose proof (scan_spec c r pos line WS NC) as S. destruct (scan c r pos line) as [t n].
  destruct S as (before & after & r' & E & SK & P & TP & TL & KE & LN' & PZ & NL & NB).
  do 4 eexists. split; [reflexivity|]. right. split; auto. exists [], before, after. rewrite SK. cbn [app].
  split; [exact E|]. split; [constructor|]. split; auto. rewrite lenN_nil. split; [lia|]. split; [lia|].
  split. { apply (f_equal (@length N)) in E. rewrite !app_length in E. unfold lenN in LN'. lia. }
  split; [change (newlines []) with 0; lia|]. split; [congruence|]. auto.
Qed.

(** ** All tokens *)
Lemma lex_from_spec fuel : forall l pos line, (length l < fuel)%nat ->
  exists ts, lex_from fuel l pos line = Some ts /\ tokens_of pos l ts.
Proof.
  induction fuel as [|fuel IH]; intros l pos line F; [lia|]. cbn [lex_from].
  destruct (next_spec (S (length l)) l pos line ltac:(lia)) as (t & r & pos' & line' & EQ & R). rewrite EQ.
  destruct R as [(A1 & A2 & A3 & A4 & A5 & A6)|(A1 & g & before & after & A2 & A3 & A4 & A5 & A6 & A7 & _)].
  - rewrite A1. eexists. split; [reflexivity|]. apply to_end; auto.
  - destruct (IH r pos' line') as (ts & TS & TO); [lia|]. exists (t :: ts). split.
    + destruct (tk t); try congruence; rewrite TS; reflexivity.
    + rewrite A2 at 1. apply to_next; auto. rewrite <- A6. exact TO.
Qed.

Lemma firstn_exact {A} (a b : list A) n : n = lenN a -> firstn (N.to_nat n) (a ++ b) = a.
Proof. intros ->. apply firstn_len_app. unfold lenN. lia. Qed.

Lemma lex_from_lines fuel src : forall pre l line ts, (length l < fuel)%nat -> src = pre ++ l ->
  line = 1 + newlines pre -> lex_from fuel l (lenN pre) line = Some ts ->
  Forall (fun t => tk t = TString -> ~ In 10 (ttext t)) ts ->
  Forall (fun t => tline t = 1 + newlines (firstn (N.to_nat (tpos t)) src)) ts.
Proof.
  induction fuel as [|fuel IH]; intros pre l line ts F ES LINE LX ST; [lia|]. cbn [lex_from] in LX.
  destruct (next_spec (S (length l)) l (lenN pre) line ltac:(lia)) as (t & r & pos' & line' & EQ & R). rewrite EQ in LX.
  destruct R as [(A1 & A2 & A3 & A4 & A5 & A6)|(A1 & g & before & after & A2 & A3 & A4 & A5 & A6 & A7 & A8 & A9 & A10 & A11)].
  - rewrite A1 in LX. injection LX as <-. constructor; [|constructor].
    rewrite A5, A6. rewrite ES. rewrite <- (app_nil_r (pre ++ l)). rewrite firstn_exact by (rewrite lenN_app; lia).
    rewrite newlines_app. lia.
  - assert (exists ts', lex_from fuel r pos' line' = Some ts' /\ ts = t :: ts') as (ts' & TS & ->).
    { destruct (tk t) eqn:K; try congruence; destruct (lex_from fuel r pos' line') as [x|]; try discriminate LX; injection LX as <-; eauto. }
    inversion ST as [|? ? S1 S2]; subst x l0.
    assert (NP : newlines (before ++ ttext t ++ after) = 0).
    { destruct A11 as [A11|A11]; auto. specialize (S1 A11). rewrite !newlines_app, A10, (newlines_none (ttext t)) by auto.
      inversion A4; subst; try reflexivity; rewrite A11 in *;
      match goal with H : spelled TString _ _ |- _ => inversion H; subst end; try reflexivity. }
    constructor.
    + rewrite A5, A8, ES, A2. replace (pre ++ g ++ before ++ ttext t ++ after ++ r) with ((pre ++ g ++ before) ++ ttext t ++ after ++ r) by (now rewrite <- !app_assoc).
      rewrite firstn_exact by (rewrite !lenN_app; lia). rewrite !newlines_app, A10. lia.
    + assert (EP : pos' = lenN (pre ++ g ++ before ++ ttext t ++ after)) by (rewrite !lenN_app; lia).
      rewrite EP in TS. refine (IH _ r line' ts' _ _ _ TS S2); [lia| |].
      * rewrite ES, A2. now rewrite <- !app_assoc.
      * rewrite A9, A8, LINE. rewrite 2!newlines_app. rewrite NP. lia.
Qed.
