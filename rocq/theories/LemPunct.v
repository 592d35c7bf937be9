(** The lexer. *)
From Verif Require Import Base LemBase ModelVM SpecVM ModelText SpecText.
Ltac Zify.zify_post_hook ::= Z.div_mod_to_equations.

Lemma peek_next l : peek 0 l = next_char l.
Proof. destruct l; reflexivity. Qed.
Lemma peek_next2 l : peek 1 l = next_char (tl l).
Proof. destruct l as [|a [|b l]]; reflexivity. Qed.

Lemma span_spec p l : let (a, b) := span p l in l = a ++ b /\ all p a /\ (b = [] \/ p (next_char b) = false).
Proof.
  induction l as [|c r IH]; cbn [span]; [split; [auto|split; [constructor|auto]]|].
  destruct (p c) eqn:E.
  - destruct (span p r) as [a b]. destruct IH as (-> & A & B). split; auto. split; [constructor; auto|auto].
  - split; auto. split; [constructor|auto].
Qed.
Lemma span_next p l : p 0 = false -> let (a, b) := span p l in l = a ++ b /\ all p a /\ p (next_char b) = false.
Proof.
  intros Z. pose proof (span_spec p l) as S. destruct (span p l) as [a b]. destruct S as (A & B & [->|C]); auto.
Qed.

Lemma newlines_app a b : newlines (a ++ b) = newlines a + newlines b.
Proof. unfold newlines. now rewrite filter_app, lenN_app. Qed.
Lemma newlines_cons c l : newlines (c :: l) = (if c =? 10 then 1 else 0) + newlines l.
Proof.
  unfold newlines. cbn [filter]. replace (10 =? c) with (c =? 10) by apply N.eqb_sym.
  destruct (c =? 10); [rewrite lenN_cons|]; lia.
Qed.
Lemma newlines_none l : ~ In 10 l -> newlines l = 0.
Proof.
  induction l as [|c l IH]; intros X; [reflexivity|]. rewrite newlines_cons. destruct (N.eqb_spec c 10) as [->|]; [exfalso; apply X; now left|].
  rewrite IH; [reflexivity|]. intros Y. apply X. now right.
Qed.

Lemma skip_block_spec l : forall pos line,
  let '(b, pos', line') := skip_block l pos line in
  (exists t, l = t ++ [42; 47] ++ b /\ (forall x y, t <> x ++ [42; 47] ++ y) /\ pos' = pos + lenN t + 2 /\ line' = line + newlines t) \/
  (b = [] /\ (forall x y, l <> x ++ [42; 47] ++ y) /\ pos' = pos + lenN l /\ line' = line + newlines l).
Proof.
  induction l as [|c r IH]; intros pos line; cbn [skip_block].
  - right. split; auto. split; [intros x y E; apply (f_equal (@length N)) in E; rewrite app_length in E; cbn in E; lia|].
    rewrite lenN_nil. unfold newlines. cbn. split; lia.
  - cbv zeta. destruct ((c =? 42) && (peek 0 r =? 47)) eqn:E.
    + apply andb_prop in E. destruct E as [E1 E2]. apply N.eqb_eq in E1, E2. subst c.
      destruct r as [|d r]; [discriminate E2|]. cbn in E2. subst d.
      left. exists []. split; auto. split; [intros x y X; apply (f_equal (@length N)) in X; rewrite app_length in X; cbn in X; lia|].
      cbn [N.eqb Pos.eqb tl]. rewrite lenN_nil. unfold newlines. cbn. split; lia.
    + specialize (IH (pos + 1) (if c =? 10 then line + 1 else line)).
      destruct (skip_block r (pos + 1) (if c =? 10 then line + 1 else line)) as [[b pos'] line'].
      assert (NO : forall x y t, (forall x y, t <> x ++ [42; 47] ++ y) -> (c = 42 -> next_char t <> 47) -> c :: t <> x ++ [42; 47] ++ y).
      { intros x y t A B X. destruct x as [|c' x]; cbn in X.
        - injection X as -> ->. apply B; reflexivity.
        - injection X as -> ->. eapply A. reflexivity. }
      destruct IH as [(t & -> & A & -> & ->)|(-> & A & -> & ->)].
      * left. exists (c :: t). split; auto. split.
        { intros x y. apply NO; auto. intros -> Y. rewrite peek_next in E. destruct t as [|d t]; [discriminate Y|]. cbn in Y. subst d.
          cbn in E. discriminate E. }
        rewrite lenN_cons, newlines_cons. split; [lia|]. destruct (c =? 10); lia.
      * right. split; auto. split.
        { intros x y. apply NO; auto. intros -> Y. rewrite peek_next, Y in E. discriminate E. }
        rewrite lenN_cons, newlines_cons. split; [lia|]. destruct (c =? 10); lia.
Qed.

(** ** Single tokens *)
Lemma keyword_spec s : In (check_keyword s, s) words \/ (check_keyword s = TIdentifier /\ forall k, ~ In (k, s) words).
Proof.
  unfold check_keyword, keywords, words. cbn [find fst].
  repeat (destruct list_eq_dec as [<-|?]; [left; cbn; tauto|]).
  right. split; [reflexivity|]. intros k I. cbn in I.
  repeat (destruct I as [I|I]; [injection I; intros; subst; congruence|]). destruct I.
Qed.

Definition puncts : list N :=
  [123; 125; 91; 93; 40; 41; 59; 58; 44; 64; 61; 33; 38; 124; 94; 126; 62; 60; 46; 43; 45; 42; 47; 37].
Lemma punct_none c n : ~ In c puncts -> punct c n = None.
Proof.
  intros X. destruct c as [|p]; [reflexivity|]. unfold punct.
  do 7 (destruct p as [p|p|]; try reflexivity; try (exfalso; apply X; cbn; tauto)).
Qed.

Ltac no_symbol := intros ? I; cbn in I;
  repeat (destruct I as [I|I]; [try discriminate I; try (injection I; intros; subst; first [lia|congruence|contradiction])|]); try contradiction.

Lemma punct_spec c r k n : punct c (next_char r) = Some (k, n) ->
  (c = 47 -> next_char r <> 47 /\ next_char r <> 42) ->
  exists s r', c :: r = s ++ r' /\ length s = n /\ spelled k s r' /\ k <> TEof /\ ~ In 10 s.
Proof.
  intros P NC. destruct (in_dec N.eq_dec c puncts) as [I|I]; [|rewrite punct_none in P by auto; discriminate].
  assert (ONE : forall k, In (k, [c]) symbols -> (forall k', ~ In (k', [c; next_char r]) symbols) ->
    (k = TMinus -> is_digit (next_char r) = false) -> k <> TEof -> c <> 10 -> Some (k, 1%nat) = Some (k, n) ->
    exists s r', c :: r = s ++ r' /\ length s = n /\ spelled k s r' /\ k <> TEof /\ ~ In 10 s).
  { clear P. intros k0 A B C D C10 E. injection E as <-. exists [c], r. split; auto. split; auto.
    split; [|split; [auto|cbn; intuition congruence]].
    constructor; auto. intros ->. apply NC. cbn in A.
    repeat (destruct A as [A|A]; [try discriminate A; try (injection A; intros; subst; reflexivity)|]). destruct A. }
  assert (TWO : forall k d, In (k, [c; d]) symbols -> next_char r = d -> k <> TMinus -> k <> TSlash -> d <> 0 -> k <> TEof -> c <> 10 -> d <> 10 ->
    Some (k, 2%nat) = Some (k, n) ->
    exists s r', c :: r = s ++ r' /\ length s = n /\ spelled k s r' /\ k <> TEof /\ ~ In 10 s).
  { clear P ONE. intros k0 d A B C D Z E C10 D10 F. injection F as <-. destruct r as [|d' r]; [cbn in B; congruence|]. cbn in B. subst d'.
    exists [c; d], r. split; auto. split; auto. split; [|split; [auto|cbn; intuition congruence]].
    constructor; auto; try contradiction. cbn [app]. intros k' I'. cbn in I'.
    repeat (destruct I' as [I'|I']; [discriminate I'|]). destruct I'. }
  unfold puncts in I. cbn in I.
  repeat match type of I with _ \/ _ => destruct I as [<-|I] end; try contradiction; cbn [punct] in P;
  repeat match type of P with context [?x =? ?y] => destruct (N.eqb_spec x y) end;
  try (destruct (is_digit (next_char r)) eqn:DG; [discriminate P|]);
  injection P as <- <-;
  first [ eapply TWO; [cbn; tauto|eassumption|discriminate|discriminate|discriminate|discriminate|discriminate|discriminate|reflexivity]
        | eapply ONE; [cbn; tauto|no_symbol|try discriminate; auto|discriminate|discriminate|reflexivity]].
Qed.
