(** Lines and columns are positions of tokens. *)
From Coq Require Import Lia ZArith.
From Verif Require Import Base ModelVM ModelText ModelParse ModelSchema ModelDiag SpecText SpecDiag LemText LemLex PropText LemSite.
Local Open Scope nat_scope.

Lemma position_fold l : forall line ch, position l line (Z.of_N ch) =
  ((line + Z.of_N (newlines l))%Z, Z.of_N (fold_left (fun n c => if (c =? 10)%N then 0%N else (n + 1)%N) l ch)).
Proof.
  induction l as [|c l IH]; intros line ch; cbn [position fold_left].
  - f_equal. cbn. lia.
  - unfold newlines. cbn [filter]. rewrite (N.eqb_sym 10 c). destruct (N.eqb_spec c 10).
    + change 0%Z with (Z.of_N 0). rewrite IH. f_equal. unfold newlines, lenN. cbn [length]. lia.
    + replace (Z.of_N ch + 1)%Z with (Z.of_N (ch + 1)) by lia. rewrite IH. reflexivity.
Qed.
Lemma position_eq l : position l 0 0 = (Z.of_N (newlines l), Z.of_N (since (fun c => (c =? 10)%N) l)).
Proof. exact (position_fold l 0%Z 0%N). Qed.

Definition paired l := forall a b, l = a ++ 13%N :: b -> next_char b = 10%N.
Lemma paired_tail c l : paired (c :: l) -> paired l.
Proof. intros P a b ->. now apply (P (c :: a) b). Qed.
Lemma same_column b : forall a n, paired (a ++ b) -> next_char b <> 10%N \/ last a 0%N <> 13%N ->
  fold_left (fun n c => if (c =? 10) || (c =? 13) then 0 else n + 1)%N a n = fold_left (fun n c => if c =? 10 then 0 else n + 1)%N a n.
Proof.
  induction a as [|c a IH]; intros n P D; [reflexivity|]. cbn [fold_left].
  assert (P' := paired_tail _ _ P). assert (D' : a <> [] -> next_char b <> 10%N \/ last a 0%N <> 13%N) by (destruct a; [congruence|intros _; exact D]).
  destruct (N.eqb_spec c 10) as [-> |N10]; cbn [orb].
  - destruct a as [|x a]; [reflexivity|]. apply IH; [exact P'|now apply D'].
  - destruct (N.eqb_spec c 13) as [-> |N13].
    + assert (NX := P [] _ eq_refl). destruct a as [|x a]; [destruct D as [D|D]; [contradiction|now destruct D]|]. cbn in NX. subst x.
      rewrite (IH 0%N P' (D' ltac:(discriminate))). reflexivity.
    + destruct a as [|x a]; [reflexivity|]. apply IH; [exact P'|now apply D'].
Qed.
(** What stands at a token *)
Lemma piece_head k s r : spelled k s r -> next_char (s ++ r) <> 10%N.
Proof.
  intros X. destruct X as [k s r I _ _ _|k s r I _|c s r A _ _ _|s r X|c r _ A _].
  - cbn in I. repeat (destruct I as [I|I]; [injection I as _ <-; discriminate|]). contradiction.
  - cbn in I. repeat (destruct I as [I|I]; [injection I as _ <-; discriminate|]). contradiction.
  - cbn. intros ->. discriminate.
  - destruct X as [m x h r M _ _ _|m d a r M D _ _ _ _|m d a f g r M D _ _ _ _]; destruct M as [-> | ->]; cbn; try discriminate; intros ->; discriminate.
  - cbn. intros ->. apply A. cbn. auto 10.
Qed.
Lemma token_split pos l ts : tokens_of pos l ts -> forall t, In t ts ->
  exists a b, l = a ++ b /\ tpos t = (pos + lenN a)%N /\ (next_char b <> 10%N \/ (a <> [] /\ last a 0%N <> 13%N)).
Proof.
  induction 1 as [pos g e BL K TX P|pos g t0 before after r ts BL PC P T IH]; intros t I.
  - destruct I as [<-|[]]. exists g, []. rewrite app_nil_r. split; [reflexivity|]. split; [exact P|]. left. discriminate.
  - destruct I as [<-|I].
    + exists (g ++ before), (ttext t0 ++ after ++ r). split; [now rewrite <- app_assoc|]. split; [unfold lenN in *; rewrite app_length; lia|].
      assert (LST : forall x y, x <> 13%N -> (g ++ y ++ [x] <> [] /\ last (g ++ y ++ [x]) 0%N <> 13%N)).
      { intros x y X. rewrite app_assoc. split; [intros Z; symmetry in Z; now apply app_cons_not_nil in Z|]. now rewrite last_last. }
      destruct PC as [k s r SP| | |].
      * left. cbn. exact (piece_head _ _ _ SP).
      * right. apply (LST 47%N [47; 47]%N). discriminate.
      * right. apply (LST 34%N []). discriminate.
      * right. apply (LST 34%N []). discriminate.
    + destruct (IH _ I) as (a & b & -> & TP & Q). exists (g ++ before ++ ttext t0 ++ after ++ a), b. split; [now rewrite <- !app_assoc|].
      split; [unfold lenN in *; rewrite !app_length; lia|]. destruct Q as [Q|(Q & Q')]; [now left|right]. rewrite !app_assoc.
      destruct (@exists_last _ a Q) as (a' & x & ->). rewrite last_last in Q'. rewrite app_assoc. split; [intros Z; symmetry in Z; now apply app_cons_not_nil in Z|]. now rewrite last_last.
Qed.
Lemma lex_tokens text ts : lex text = Some ts -> tokens_of 0 text ts.
Proof. intros L. destruct (C38_tokens text) as (ts' & L' & T). congruence. Qed.
Lemma plain_line text ts t : plain text -> lex text = Some ts -> In t ts -> (Z.of_N (tline t) - 1)%Z = fst (start_of text t).
Proof.
  intros (P & _) L I. assert (F : Forall (fun t => tk t = TString -> ~ In 10%N (ttext t)) ts).
  { apply Forall_forall. intros x X. eapply P; [exact L|exact X]. }
  pose proof (C38_lines_partial _ _ L F) as G. rewrite Forall_forall in G. rewrite (G _ I). unfold start_of. rewrite position_eq. cbn [fst]. lia.
Qed.
Lemma lines_column text t : Z.of_N (since (fun c => (c =? 10)%N) (firstn (N.to_nat (tpos t)) text)) = snd (start_of text t).
Proof. unfold start_of. now rewrite position_eq. Qed.
Lemma plain_column text ts t : plain text -> lex text = Some ts -> In t ts ->
  Z.of_N (since (fun c => (c =? 10) || (c =? 13))%N (firstn (N.to_nat (tpos t)) text)) = snd (start_of text t).
Proof.
  intros (_ & P) L I. rewrite <- lines_column. f_equal. destruct (token_split _ _ _ (lex_tokens _ _ L) _ I) as (a & b & EQ & TP & Q).
  replace (firstn (N.to_nat (tpos t)) text) with a.
  2: { rewrite EQ, TP. replace (N.to_nat (0 + lenN a)) with (length a) by (unfold lenN; lia). rewrite firstn_app, firstn_all, PeanoNat.Nat.sub_diag. now rewrite app_nil_r. }
  apply (same_column b); [rewrite <- EQ; exact P|]. destruct Q as [Q|(_ & Q)]; auto.
Qed.

(** A check *)
Definition plainb (text : list N) : bool :=
  forallb (fun c => negb (c =? 13)%N) text &&
  match lex text with Some ts => forallb (fun t => if kind_eq_dec (tk t) TString then forallb (fun c => negb (c =? 10)%N) (ttext t) else true) ts | None => true end.
Lemma plain_check text : plainb text = true -> plain text.
Proof.
  intros H. apply andb_prop in H. destruct H as (A & B). split.
  - intros ts t L I K J. rewrite L in B. rewrite forallb_forall in B. specialize (B _ I). destruct (kind_eq_dec _ _); [|contradiction].
    rewrite forallb_forall in B. specialize (B _ J). discriminate.
  - intros a b ->. rewrite forallb_forall in A. specialize (A 13%N ltac:(apply in_or_app; right; now left)). discriminate.
Qed.

(** ** The diagnostics *)
Lemma diagnostics_places E fuel path src diags opened : diagnose E fuel path src = Shown diags opened -> plain src ->
  (forall f text, In (cstr f) opened -> e_read E f = Some text -> plain text) ->
  Forall (fun d => exists file text ts t, (file = path /\ text = src \/ In (cstr file) opened /\ e_read E file = Some text) /\
    tokens_of 0 text ts /\ In t ts /\ d = start_of text t) diags.
Proof.
  unfold diagnose. destruct (analyse E fuel path src) as [u p| |] eqn:A; try discriminate. destruct u. intros X PS PF. injection X as <- <-.
  destruct (analyse_ok E path src fuel p A) as (F & _). unfold diagnostics. apply Forall_map, Forall_forall. intros ((d & f) & t) I.
  assert (J : In (d, f, t) (p_errs p)).
  { apply in_rev. rewrite <- (firstn_skipn kept (rev (p_errs p))). apply in_or_app. now left. }
  rewrite Forall_forall in F. destruct (F _ J) as (all & (text & LX & FT) & IT).
  assert (S : (f = path /\ text = src \/ In (cstr f) (map cstr (p_imports p)) /\ e_read E f = Some text) /\ text_at E src d f = text).
  { unfold text_at. destruct (d =? 0)%N; [destruct FT as (-> & ->); auto|]. destruct FT as (R & O). split; [right; auto|]. now rewrite R. }
  destruct S as (S & TA). assert (PT : plain text) by (destruct S as [(_ & ->)|(O & R)]; [exact PS|exact (PF _ _ O R)]).
  exists f, text, all, t. split; [exact S|]. split; [exact (lex_tokens _ _ LX)|]. split; [exact IT|]. unfold diagnostic. rewrite TA.
  rewrite (plain_line _ _ _ PT LX IT), (plain_column _ _ _ PT LX IT). now destruct (start_of text t).
Qed.
Lemma diagnostics_few E fuel path src diags opened : diagnose E fuel path src = Shown diags opened -> length diags <= 1024.
Proof.
  unfold diagnose. destruct (analyse E fuel path src); try discriminate. intros X. injection X as <- _. unfold diagnostics. rewrite map_length, firstn_length.
  change kept with 1024. lia.
Qed.
Lemma diagnostics_nil E src p path fuel : analyse E fuel path src = POk tt p -> (diagnostics E src p = [] <-> p_err p = false).
Proof.
  intros A. destruct (analyse_ok E path src fuel p A) as (_ & B & _). unfold diagnostics. split.
  - intros X. apply map_eq_nil in X. destruct (p_err p); [|reflexivity]. exfalso. apply (proj1 B eq_refl).
    destruct (rev (p_errs p)) as [|e l] eqn:R; [|discriminate]. apply (f_equal (@rev _)) in R. now rewrite rev_involutive in R.
  - intros X. destruct (p_errs p); [reflexivity|]. assert (p_err p = true) by (apply B; discriminate). congruence.
Qed.

(** ** Definitions *)
Lemma token_at_spec src line ch : forall toks prev t deco, token_at src line ch prev toks = Some (t, deco) ->
  In t toks /\ (Z.of_N (tline t) - 1 = line)%Z /\ (snd (start_of src t) <= ch <= snd (start_of src t) + Z.of_N (lenN (ttext t)))%Z.
Proof.
  induction toks as [|x toks IH]; intros prev t deco; cbn [token_at]; [discriminate|]. rewrite lines_column.
  destruct (_ && _ && _)%bool eqn:C.
  - assert (H : Some (x, if kind_eq_dec prev TAt then true else false) = Some (t, deco) -> In t (x :: toks) /\ (Z.of_N (tline t) - 1 = line)%Z /\
      (snd (start_of src t) <= ch <= snd (start_of src t) + Z.of_N (lenN (ttext t)))%Z).
    { intros X. injection X as <- _. apply andb_prop in C. destruct C as (C & C3). apply andb_prop in C. destruct C as (C1 & C2).
      split; [now left|]. apply Z.eqb_eq in C1. apply Z.leb_le in C2. apply Z.leb_le in C3. auto. }
    destruct (tk x); try exact H; discriminate.
  - assert (H : forall k, (if (line <? Z.of_N (tline x) - 1)%Z then None else token_at src line ch k toks) = Some (t, deco) -> In t (x :: toks) /\
      (Z.of_N (tline t) - 1 = line)%Z /\ (snd (start_of src t) <= ch <= snd (start_of src t) + Z.of_N (lenN (ttext t)))%Z).
    { intros k. destruct (_ <? _)%Z; [discriminate|]. intros X. destruct (IH _ _ _ X) as (I & R). split; [now right|exact R]. }
    destruct (tk x); try exact (H _); discriminate.
Qed.
Lemma find_site_spec e name l s : find_site e name l = Some s -> In s l /\ site_enum s = e /\ site_name s = name.
Proof.
  intros F. apply find_some in F. destruct F as (I & F). apply andb_prop in F. destruct F as (A & B). apply Bool.eqb_prop in A.
  split; [exact I|]. split; [exact A|]. unfold same_text in B. destruct (list_eq_dec _ _ _); [assumption|discriminate].
Qed.
Lemma site_place E path src L s : plain src -> (forall f text, e_read E f = Some text -> plain text) -> site_ok E path src L s ->
  exists text, (site_path s = path /\ text = src \/ e_read E (site_path s) = Some text) /\
    defines text (if site_enum s then TEnum else TStruct) (site_name s) (Z.of_N (site_line s) - 1).
Proof.
  intros PS PF (text & all & t & SF & LX & (a & kw & b & c & EQ & K & B) & N1 & N2).
  assert (PT : plain text) by (destruct SF as [(_ & ->)|(R & _)]; [exact PS|exact (PF _ _ R)]).
  exists text. split; [destruct SF as [SF|(R & _)]; auto|]. exists all, a, kw, b, t, c. split; [exact (lex_tokens _ _ LX)|]. split; [exact EQ|]. split; [exact K|].
  split; [exact B|]. split; [exact N1|]. rewrite <- N2. symmetry. eapply plain_line; eauto. rewrite EQ. apply in_or_app. right. right. apply in_or_app. right. now left.
Qed.
Lemma found_place E fuel path src line ch name l file details : find_at E fuel path src line ch = Looked (Some (name, Defined l file details)) ->
  plain src -> (forall f text, e_read E f = Some text -> plain text) ->
  (exists ts t, tokens_of 0 src ts /\ In t ts /\ tk t = TIdentifier /\ ttext t = name /\ fst (start_of src t) = line /\
    (snd (start_of src t) <= ch <= snd (start_of src t) + Z.of_N (lenN name))%Z) /\
  exists text k, (file = path /\ text = src \/ e_read E file = Some text) /\ defines text k name l /\ (if details then k = TEnum else k = TStruct \/ k = TEnum).
Proof.
  unfold find_at. destruct (lex src) as [toks|] eqn:LX; [|destruct (analyse E fuel path src); discriminate]. destruct (analyse E fuel path src) as [[] p| |] eqn:A; try discriminate.
  destruct (_ <? _); [discriminate|]. intros X PS PF. injection X as X. destruct (token_at _ _ _ _ _) as [(t & deco)|] eqn:TA; [|discriminate].
  destruct (token_at_spec _ _ _ _ _ _ _ TA) as (IT & LN & CO). destruct (analyse_ok E path src fuel p A) as (_ & _ & ST). rewrite Forall_forall in ST.
  unfold look_up in X. destruct (is_kind TIdentifier t) eqn:K; [|discriminate]. assert (K' : tk t = TIdentifier) by (unfold is_kind in K; destruct (kind_eq_dec _ _); congruence).
  assert (TK : ttext t = name -> exists ts t, tokens_of 0 src ts /\ In t ts /\ tk t = TIdentifier /\ ttext t = name /\ fst (start_of src t) = line /\
    (snd (start_of src t) <= ch <= snd (start_of src t) + Z.of_N (lenN name))%Z).
  { intros <-. exists toks, t. split; [exact (lex_tokens _ _ LX)|]. split; [exact IT|]. split; [exact K'|]. split; [reflexivity|]. split; [|exact CO].
    rewrite <- LN. symmetry. eapply plain_line; eauto. }
  destruct (if deco then builtin (ttext t) else None) as [(doc & detail)|]; [discriminate|].
  destruct (find_site false (ttext t) (p_sites p)) as [s|] eqn:F.
  - injection X as <- <- <- <-. split; [now apply TK|]. destruct (find_site_spec _ _ _ _ F) as (IS & EN & NM).
    destruct (site_place _ _ _ _ _ PS PF (ST _ IS)) as (text & SF & D). exists text, TStruct. split; [exact SF|]. rewrite EN, NM in D. auto.
  - destruct (find_site true (ttext t) (p_sites p)) as [s|] eqn:F2; [|discriminate]. injection X as <- <- <- DT. split; [now apply TK|].
    destruct (find_site_spec _ _ _ _ F2) as (IS & EN & NM). destruct (site_place _ _ _ _ _ PS PF (ST _ IS)) as (text & SF & D). exists text, TEnum. split; [exact SF|].
    rewrite EN, NM in D. split; [exact D|]. destruct details; auto.
Qed.
Lemma symbols_places E fuel path src l : document_symbols E fuel path src = Listed l -> plain src -> (forall f text, e_read E f = Some text -> plain text) ->
  Forall (fun '(name, kind, line) => exists file text, (file = path /\ text = src \/ e_read E file = Some text) /\
    (kind = 23%N /\ defines text TStruct name line \/ kind = 10%N /\ defines text TEnum name line)) l.
Proof.
  unfold document_symbols. destruct (analyse E fuel path src) as [[] p| |] eqn:A; try discriminate. destruct (_ <? _); [discriminate|]. intros X PS PF. injection X as <-.
  destruct (analyse_ok E path src fuel p A) as (_ & _ & ST). rewrite Forall_forall in ST. unfold symbols. apply Forall_app. split; apply Forall_map, Forall_forall; intros s I;
    apply filter_In in I; destruct I as (I & EN); apply Bool.eqb_prop in EN; destruct (site_place _ _ _ _ _ PS PF (ST _ I)) as (text & SF & D); rewrite EN in D;
    exists (site_path s), text; (split; [exact SF|]); auto.
Qed.
