(** From every use of a name its definition is found. *)
From Coq Require Import ZArith Strings.String Lia ZifyBool ZifyNat ZifyN.
From Verif Require LemComplete LemOutline LemSite.
From Verif Require Import Base SpecBytes LemBase ModelFloat SpecVM ModelVM ModelImage ModelText SpecText ModelNames ModelParse ModelSchema ModelDiag SpecMessage SpecSource SpecGrammar LemGrammarField LemGrammarFile SpecDiag LemPlace LemOffers.
Local Open Scope N_scope.

Lemma position_app a : forall b l c, position (a ++ b) l c = let (l', c') := position a l c in position b l' c'.
Proof. induction a as [|x a IH]; intros; cbn [app position]; [reflexivity|]. destruct (x =? 10); apply IH. Qed.
Lemma position_line b : forall l c, (l <= fst (position b l c))%Z /\ (fst (position b l c) = l -> snd (position b l c) = (c + Z.of_N (lenN b))%Z).
Proof.
  induction b as [|x b IH]; intros l c; cbn [position]; [cbn; lia|]. rewrite lenN_cons. destruct (x =? 10).
  - destruct (IH (l + 1)%Z 0%Z). lia.
  - destruct (IH l (c + 1)%Z) as (A & B). split; [exact A|]. intros X. rewrite (B X). lia.
Qed.
Lemma ordered pos l ts : tokens_of pos l ts -> forall a t b, ts = a ++ t :: b ->
  Forall (fun x => tk x <> TEof /\ tpos x + lenN (ttext x) <= tpos t) a /\ tpos t <= pos + lenN l.
Proof.
  induction 1 as [pos g e B K T P|pos g t0 before after r ts B PC P TS IH]; intros a t b X.
  - destruct a as [|x [|y a]]; try discriminate. injection X as <- <-. split; [constructor|lia].
  - rewrite !lenN_app. destruct a as [|x a].
    + injection X as <- <-. split; [constructor|lia].
    + injection X as <- ->. destruct (IH a t b eq_refl) as (F & L). split; [|lia]. constructor; [|exact F]. split; [eapply LemComplete.piece_kind; eauto|].
      pose proof (LemComplete.tokens_after _ _ _ TS) as G. rewrite Forall_app in G. destruct G as (_ & G). inversion G. lia.
Qed.
Lemma before_on_line text n m k : n + k <= m -> m <= lenN text ->
  let s := position (firstn (N.to_nat n) text) 0 0 in let t := position (firstn (N.to_nat m) text) 0 0 in
  (fst s <= fst t)%Z /\ (fst s = fst t -> (snd s + Z.of_N k <= snd t)%Z).
Proof.
  intros L M. cbv zeta. assert (X : firstn (N.to_nat m) text = firstn (N.to_nat n) text ++ firstn (N.to_nat (m - n)) (skipn (N.to_nat n) text)).
  { rewrite <- (firstn_skipn (N.to_nat n) text) at 1. rewrite firstn_app. rewrite firstn_firstn. rewrite Nat.min_r by lia. f_equal. f_equal. rewrite firstn_length. unfold lenN in M. lia. }
  rewrite X, position_app. destruct (position (firstn (N.to_nat n) text) 0 0) as (l & c). cbn [fst snd].
  assert (LN : lenN (firstn (N.to_nat (m - n)) (skipn (N.to_nat n) text)) = m - n) by (unfold lenN in *; rewrite firstn_length, skipn_length; lia).
  destruct (position_line (firstn (N.to_nat (m - n)) (skipn (N.to_nat n) text)) l c) as (A & B). split; [exact A|]. intros Y. rewrite (B (eq_sym Y)), LN. lia.
Qed.
Definition last_kind (prev : kind) (a : list token) : kind := match rev a with x :: _ => tk x | [] => prev end.
Lemma token_at_found src line ch t b : tk t <> TEof -> (Z.of_N (tline t) - 1 = line)%Z -> (snd (start_of src t) < ch <= snd (start_of src t) + Z.of_N (lenN (ttext t)))%Z ->
  forall a prev, Forall (fun x => tk x <> TEof /\ (Z.of_N (tline x) - 1 <= line)%Z /\ (Z.of_N (tline x) - 1 = line -> snd (start_of src x) + Z.of_N (lenN (ttext x)) <= snd (start_of src t))%Z) a ->
  token_at src line ch prev (a ++ t :: b) = Some (t, if kind_eq_dec (last_kind prev a) TAt then true else false).
Proof.
  intros K L C. induction a as [|x a IH]; intros prev F; cbn [app token_at]; rewrite lines_column.
  - assert (X : ((Z.of_N (tline t) - 1 =? line) && (snd (start_of src t) <=? ch) && (ch <=? snd (start_of src t) + Z.of_N (lenN (ttext t))))%Z = true) by lia.
    rewrite X. unfold last_kind. cbn [rev]. destruct (tk t); congruence.
  - inversion F as [|y l (KX & LX & CX) F' E1]. subst y l.
    assert (X : ((Z.of_N (tline x) - 1 =? line) && (snd (start_of src x) <=? ch) && (ch <=? snd (start_of src x) + Z.of_N (lenN (ttext x))))%Z = false) by lia.
    rewrite X. replace (line <? Z.of_N (tline x) - 1)%Z with false by lia.
    assert (LK : last_kind (tk x) a = last_kind prev (x :: a)) by (unfold last_kind; cbn [rev]; destruct (rev a); reflexivity). rewrite <- LK, <- (IH _ F').
    destruct (tk x); congruence.
Qed.
Lemma find_site_some e n l : In n (map site_name (filter (fun s => Bool.eqb (site_enum s) e) l)) -> exists s, find_site e n l = Some s.
Proof.
  intros I. apply in_map_iff in I as (s & <- & I). apply filter_In in I as (I & EQ). unfold find_site. destruct (find _ l) as [x|] eqn:F; [eauto|].
  apply (List.find_none _ _ F) in I. rewrite EQ in I. cbn in I. assert (same_text (site_name s) (site_name s) = true) by (unfold same_text; now destruct (list_eq_dec _ _ _)). congruence.
Qed.
Lemma use_found E fuel path src opened a t b line ch : diagnose E fuel path src = Shown [] opened -> plain src ->
  lex src = Some (a ++ t :: b) -> tk t = TIdentifier -> last_kind TEof a <> TAt ->
  fst (start_of src t) = line -> (snd (start_of src t) < ch <= snd (start_of src t) + Z.of_N (lenN (ttext t)))%Z ->
  forall p, analyse E fuel path src = POk tt p ->
  In (ttext t) (map fst (p_structs p)) \/ In (ttext t) (map en_name (p_enums p)) ->
  exists l file details, find_at E fuel path src line ch = Looked (Some (ttext t, Defined l file details)).
Proof.
  intros D PS LX K NA FL C p A I. unfold find_at. rewrite LX, A. destruct (shown_none _ _ _ _ _ D) as (p' & A' & E0). rewrite A in A'. injection A' as <-.
  assert (NE : p_errs p = []). { destruct (LemSite.analyse_ok _ _ _ _ _ A) as (_ & B & _). destruct (p_errs p); [reflexivity|]. assert (p_err p = true) by (apply B; discriminate). congruence. }
  rewrite NE. cbn [List.length]. replace (ModelDiag.kept <? 0)%nat with false by reflexivity.
  assert (IT : forall x, In x (a ++ [t]) -> (Z.of_N (tline x) - 1)%Z = fst (start_of src x)).
  { intros x IX. eapply plain_line; eauto. apply in_app_iff in IX as [IX|[<-|[]]]; apply in_or_app; [now left|right; now left]. }
  assert (TA : token_at src line ch TEof (a ++ t :: b) = Some (t, if kind_eq_dec (last_kind TEof a) TAt then true else false)).
  { apply token_at_found; [congruence|rewrite IT; [exact FL|apply in_or_app; right; now left]|exact C|].
    destruct (ordered _ _ _ (lex_tokens _ _ LX) a t b eq_refl) as (O & LE). apply Forall_forall. intros x IX. rewrite Forall_forall in O. destruct (O _ IX) as (KX & OX).
    split; [exact KX|]. rewrite (IT x) by (apply in_or_app; now left). rewrite N.add_0_l in LE. destruct (before_on_line src _ _ _ OX LE) as (P & Q).
    fold (start_of src x) in P, Q. fold (start_of src t) in P, Q. rewrite FL in P, Q. split; [exact P|exact Q]. }
  rewrite TA. destruct (kind_eq_dec _ _) as [X|_]; [contradiction|]. unfold look_up. rewrite (proj2 (LemComplete.is_kind_iff _ _) K).
  destruct (LemOutline.analyse_names _ _ _ _ _ A) as (N1 & N2). unfold LemOutline.names in N1, N2. rewrite <- N1, <- N2 in I.
  destruct (find_site false (ttext t) (p_sites p)) as [s|] eqn:F1; [eauto|]. destruct (find_site true (ttext t) (p_sites p)) as [s|] eqn:F2; [eauto|].
  exfalso. destruct I as [I|I]; apply find_site_some in I as (s & X); congruence.
Qed.
