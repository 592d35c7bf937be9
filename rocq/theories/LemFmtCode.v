(** Formatting keeps the tokens the compiler sees. *)
From Verif Require Import Base LemBase ModelText SpecText LemPunct LemLex ModelFmt SpecFmt LemFmt LemFmtAgain.
Ltac Zify.zify_post_hook ::= Z.div_mod_to_equations.

Definition solid (c : N) : Prop := ~ In c [32; 9; 13; 10; 123; 125; 59; 44; 34].
Definition dull (l : list N) : Prop := In (next_char l) [0; 32; 9; 13; 10; 123; 125; 59; 44; 34; 47].

(** ** Reading tokens, without positions *)
Definition past (l : list N) : list N := fst (fst (skip_block l 0 0)).
Inductive reads : list N -> list (kind * list N) -> Prop :=
| rd_end : reads [] [(TEof, [])]
| rd_white c l ts : white c = true -> reads l ts -> reads (c :: l) ts
| rd_doc a b ts : all (fun x => negb (x =? 10) && negb (x =? 13)) a -> b = [] \/ In (next_char b) [10; 13] -> reads b ts ->
    reads (47 :: 47 :: 47 :: a ++ b) ((TDoc, a) :: ts)
| rd_line a b ts : all (fun x => negb (x =? 10)) a -> b = [] \/ next_char b = 10 -> next_char (a ++ b) <> 47 -> reads b ts ->
    reads (47 :: 47 :: a ++ b) ts
| rd_block l ts : reads (past l) ts -> reads (47 :: 42 :: l) ts
| rd_token c r t n ts : white c = false -> (c = 47 -> next_char r <> 47 /\ next_char r <> 42) -> scan c r 0 0 = (t, n) ->
    reads (skipn n (c :: r)) ts -> reads (c :: r) ((tk t, ttext t) :: ts).

Lemma scan_any c r p q : exists t, scan c r p q = (t, snd (scan c r 0 0)) /\
  tk t = tk (fst (scan c r 0 0)) /\ ttext t = ttext (fst (scan c r 0 0)).
Proof.
  unfold scan. destruct (c =? 34). { destruct (span _ r). eexists. split; [reflexivity|]. auto. }
  destruct (punct c (peek 0 r)) as [[k n]|]. { eexists. split; [reflexivity|]. auto. }
  destruct (is_alpha c). { eexists. split; [reflexivity|]. auto. }
  destruct (_ || _); (eexists; split; [reflexivity|]; auto).
Qed.

Lemma punct_kind c n k m : punct c n = Some (k, m) -> k <> TEof /\ (1 <= m)%nat.
Proof.
  intros E. destruct (in_dec N.eq_dec c puncts) as [I|NI]; [|rewrite punct_none in E by exact NI; discriminate].
  cbn in I. decompose [or] I; try contradiction; subst c; cbn in E;
    repeat match type of E with context [if ?b then _ else _] => destruct b end; try discriminate E; injection E as <- <-; split; try discriminate; lia.
Qed.

Lemma scan_kind c r : tk (fst (scan c r 0 0)) <> TEof /\ (1 <= snd (scan c r 0 0))%nat.
Proof.
  unfold scan. destruct (c =? 34). { destruct (span _ r) as [a [|]]; cbn; split; try discriminate; lia. }
  destruct (punct c (peek 0 r)) as [[k n]|] eqn:P. { apply punct_kind in P. exact P. }
  destruct (is_alpha c).
  { cbn [fst snd tk]. split; [|lia]. destruct (keyword_spec (firstn (S (length (fst (span is_alnum r)))) (c :: r))) as [I|[E _]].
    - intros E. rewrite E in I. cbn in I. decompose [or] I; try discriminate. contradiction.
    - rewrite E. discriminate. }
  destruct (_ || _); cbn [fst snd tk]; (split; [discriminate|]); [|lia].
  unfold number_len. repeat match goal with |- context [if ?b then _ else _] => destruct b end; try lia.
  destruct (span is_digit r). destruct (_ && _); lia.
Qed.

Lemma past_any l : forall p q, fst (fst (skip_block l p q)) = past l.
Proof.
  unfold past. enough (forall p q p' q', fst (fst (skip_block l p q)) = fst (fst (skip_block l p' q'))) by auto.
  induction l as [|c r IH]; intros; [reflexivity|]. cbn [skip_block]. destruct (_ && _); [reflexivity|]. apply IH.
Qed.
Lemma past_cons c r : past (c :: r) = if (c =? 42) && (next_char r =? 47) then tl r else past r.
Proof.
  unfold past at 1. cbn [skip_block]. rewrite peek_next. destruct (_ && _); [reflexivity|]. apply past_any.
Qed.
Lemma past_len l : (length (past l) <= length l)%nat.
Proof. induction l as [|c r IH]; [auto|]. rewrite past_cons. destruct (_ && _); [destruct r; cbn; lia|cbn; lia]. Qed.

Lemma reads_next l ts : reads l ts -> forall fuel pos line, (length l < fuel)%nat ->
  exists t l' pos' line', lexer_next fuel l pos line = Some (t, l', pos', line') /\
    ((tk t = TEof /\ ttext t = [] /\ ts = [(TEof, [])]) \/
     (tk t <> TEof /\ (length l' < length l)%nat /\ exists ts', ts = (tk t, ttext t) :: ts' /\ reads l' ts')).
Proof.
  induction 1 as [|c l ts W R IH|a b ts A B R IH|a b ts A B NX R IH|l ts R IH|c r t n ts W N47 S R IH]; intros fuel pos line L;
    (destruct fuel as [|fuel]; [cbn in L; lia|]).
  - repeat eexists. left. auto.
  - cbn [length] in L. assert (X : exists p q, lexer_next (S fuel) (c :: l) pos line = lexer_next fuel l p q).
    { cbn [lexer_next]. unfold white, is_space in W. destruct (N.eqb_spec c 32); [cbn [orb]; eauto|].
      destruct (N.eqb_spec c 13); [cbn [orb]; eauto|]. destruct (N.eqb_spec c 9); [cbn [orb]; eauto|].
      destruct (N.eqb_spec c 10); [cbn [orb]; eauto|]. discriminate. }
    destruct X as (p & q & ->). destruct (IH fuel p q ltac:(lia)) as (t & l' & p' & q' & E & D).
    exists t, l', p', q'. split; [exact E|]. destruct D as [D|(D1 & D2 & D3)]; [auto|]. right. cbn [length]. split; [auto|]. split; [lia|auto].
  - cbn [lexer_next]. cbn [N.eqb Pos.eqb orb andb]. unfold peek at 1 2. cbn [nth N.eqb Pos.eqb andb skipn].
    rewrite (span_stop _ a b); auto.
    + repeat eexists. right. split; [discriminate|]. split; [cbn [length]; rewrite app_length; lia|]. eauto.
    + destruct B as [B|B]; [auto|]. right. cbn in B. destruct B as [B|[B|[]]]; rewrite <- B; reflexivity.
  - assert (X : exists p q, lexer_next (S fuel) (47 :: 47 :: a ++ b) pos line = lexer_next fuel b p q).
    { cbn [lexer_next]. cbn [N.eqb Pos.eqb orb andb]. unfold peek at 1 3. cbn [nth N.eqb Pos.eqb andb].
      rewrite peek_next2. cbn [tl]. replace (next_char (a ++ b) =? 47) with false by (symmetry; now apply N.eqb_neq).
      assert (Y : span (fun x => negb (x =? 10)) (47 :: 47 :: a ++ b) = (47 :: 47 :: a, b)).
      { apply (span_stop _ (47 :: 47 :: a) b); [repeat constructor; exact A|].
        destruct B as [B|B]; [auto|]. right. rewrite B. reflexivity. }
      rewrite Y. eauto. }
    destruct X as (p & q & ->). destruct (IH fuel p q) as (t & l' & p' & q' & E & D).
    { cbn [length] in L. rewrite app_length in L. lia. }
    exists t, l', p', q'. split; [exact E|]. destruct D as [D|(D1 & D2 & D3)]; [auto|]. right. cbn [length]. rewrite app_length. split; [auto|]. split; [lia|auto].
  - assert (X : exists p q, lexer_next (S fuel) (47 :: 42 :: l) pos line = lexer_next fuel (past l) p q).
    { cbn [lexer_next]. cbn [N.eqb Pos.eqb orb andb]. unfold peek at 1 3 4. cbn [nth N.eqb Pos.eqb andb tl].
      pose proof (past_any l (pos + 2) line) as PA. destruct (skip_block l (pos + 2) line) as [[l' p'] q']. cbn [fst] in PA. subst l'. eauto. }
    destruct X as (p & q & ->). pose proof (past_len l). cbn [length] in L. destruct (IH fuel p q ltac:(lia)) as (t & l' & p' & q' & E & D).
    exists t, l', p', q'. split; [exact E|]. destruct D as [D|(D1 & D2 & D3)]; [auto|]. right. cbn [length]. split; [auto|]. split; [lia|auto].
  - destruct (scan_any c r pos line) as (t' & E & K & T). rewrite S in E, K, T. cbn [fst snd] in *.
    pose proof (scan_kind c r) as SK. rewrite S in SK. cbn [fst snd] in SK.
    assert (X : lexer_next (Datatypes.S fuel) (c :: r) pos line = Some (t', skipn n (c :: r), pos + N.of_nat n, line)).
    { cbn [lexer_next]. unfold white, is_space in W. rewrite !peek_next.
      replace ((c =? 32) || (c =? 13) || (c =? 9)) with false by (destruct (c =? 32), (c =? 13), (c =? 9); cbn in *; congruence).
      replace (c =? 10) with false by (destruct (c =? 10); [rewrite orb_true_r in W; discriminate|reflexivity]).
      replace ((c =? 47) && (next_char r =? 47)) with false by (destruct (N.eqb_spec c 47); [destruct (N47 e); symmetry; now apply N.eqb_neq|reflexivity]).
      replace ((c =? 47) && (next_char r =? 42)) with false by (destruct (N.eqb_spec c 47); [destruct (N47 e); symmetry; now apply N.eqb_neq|reflexivity]).
      cbn [andb]. now rewrite E. }
    rewrite X. repeat eexists. right. rewrite K, T. split; [apply SK|]. split; [|eauto]. rewrite skipn_length. cbn [length]. lia.
Qed.

Lemma reads_lex n : forall l ts, (length l <= n)%nat -> reads l ts -> forall fuel pos line, (length l < fuel)%nat ->
  exists ts', lex_from fuel l pos line = Some ts' /\ code ts' = ts.
Proof.
  induction n as [|n IH]; intros l ts L R fuel pos line F; (destruct fuel as [|fuel]; [lia|]); cbn [lex_from];
    destruct (reads_next _ _ R (S (length l)) pos line ltac:(lia)) as (t & l' & p & q & E & D); rewrite E;
    (destruct D as [(K & T & ->)|(K & L' & ts' & -> & R')]).
  - rewrite K. eexists. split; [reflexivity|]. cbn. now rewrite K, T.
  - lia.
  - rewrite K. eexists. split; [reflexivity|]. cbn. now rewrite K, T.
  - destruct (IH l' ts' ltac:(lia) R' fuel p q ltac:(lia)) as (ts2 & E2 & <-). rewrite E2.
    exists (t :: ts2). split; [|reflexivity]. destruct (tk t); reflexivity || contradiction.
Qed.

(** ** Texts that read alike *)
Inductive at_ : Type := ACode | ARun | ABlock.
Inductive sim : at_ -> list N -> list N -> Prop :=
| sm_end : sim ACode [] []
| sm_left c s o : white c = true -> sim ACode s o -> sim ACode (c :: s) o
| sm_right c s o : white c = true -> sim ACode s o -> sim ACode s (c :: o)
| sm_sep c s o : In c [123; 125; 59; 44] -> sim ACode s o -> sim ACode (c :: s) (c :: o)
| sm_string a s o : ~ In 34 a -> sim ACode s o -> sim ACode (34 :: a ++ 34 :: s) (34 :: a ++ 34 :: o)
| sm_line a s o : ~ In 10 a -> (forall x y, a = x ++ 13 :: y -> y = []) -> s = [] \/ next_char s = 10 -> o = [] \/ next_char o = 10 ->
    sim ACode s o -> sim ACode (47 :: 47 :: a ++ s) (47 :: 47 :: a ++ o)
| sm_block s o : sim ABlock s o -> sim ACode (47 :: 42 :: s) (47 :: 42 :: o)
| sm_run s o : sim ARun s o -> sim ACode s o
| sr_stop s o : dull s -> dull o -> sim ACode s o -> sim ARun s o
| sr_char c s o : solid c -> (c = 47 -> ~ In (next_char s) [47; 42] /\ ~ In (next_char o) [47; 42]) -> sim ARun s o ->
    sim ARun (c :: s) (c :: o)
| sb_end : sim ABlock [] []
| sb_left c s o : white c = true -> sim ABlock s o -> sim ABlock (c :: s) o
| sb_right c s o : white c = true -> sim ABlock s o -> sim ABlock s (c :: o)
| sb_char c s o : (c = 42 -> next_char s <> 47 /\ next_char o <> 47) -> sim ABlock s o -> sim ABlock (c :: s) (c :: o)
| sb_close s o : sim ACode s o -> sim ABlock (42 :: 47 :: s) (42 :: 47 :: o).

Fixpoint runs (u s : list N) : Prop :=
  match u with [] => True | c :: r => solid c /\ (c = 47 -> ~ In (next_char (r ++ s)) [47; 42]) /\ runs r s end.

Ltac dulls H := unfold dull in H; cbn [In] in H; decompose [or] H; clear H; try contradiction.

Lemma punct_dull c x : In x [0; 32; 9; 13; 10; 123; 125; 59; 44; 34; 47] -> punct c x = punct c 0 /\ forall k n, punct c 0 = Some (k, n) -> n = 1%nat.
Proof.
  intros I. destruct (in_dec N.eq_dec c puncts) as [P|P]; [|rewrite !punct_none by exact P; split; [reflexivity|discriminate]].
  split.
  - cbn in P. decompose [or] P; try contradiction; subst c; try reflexivity; cbn in I; decompose [or] I; try contradiction; subst x; reflexivity.
  - intros k n. cbn in P. decompose [or] P; try contradiction; subst c; cbn; now intros [= <- <-].
Qed.

Lemma span_app p u s : p (next_char s) = false -> span p (u ++ s) = (fst (span p u), snd (span p u) ++ s).
Proof.
  intros S. induction u as [|c u IH]; cbn [app span fst snd].
  - destruct s as [|c s]; [reflexivity|]. cbn in S |- *. now rewrite S.
  - destruct (p c); [|reflexivity]. rewrite IH. now destruct (span p u).
Qed.

Lemma number_dull c u s : dull s -> number_len c (u ++ s) = number_len c u.
Proof.
  intros D. assert (D1 : is_hex (next_char s) = false /\ is_digit (next_char s) = false /\ (next_char s =? 120) || (next_char s =? 88) = false /\
    next_char s <> 48 /\ next_char s <> 46).
  { dulls D; match goal with H : _ = next_char s |- _ => rewrite <- H end; repeat split; discriminate. }
  destruct D1 as (DH & DD & DX & D48 & D46). unfold number_len. cbv zeta. rewrite !peek_next, !peek_next2.
  assert (E0 : (next_char (u ++ s) =? 120) || (next_char (u ++ s) =? 88) = (next_char u =? 120) || (next_char u =? 88)).
  { destruct u; [exact DX|reflexivity]. }
  rewrite E0. assert (E1 : (next_char (u ++ s) =? 48) = (next_char u =? 48)).
  { destruct u; [cbn; now apply N.eqb_neq|reflexivity]. }
  rewrite E1. destruct ((c =? 48) && _) eqn:C1.
  { destruct u as [|d u]; [cbn in C1; rewrite andb_false_r in C1; discriminate|]. cbn [app skipn]. rewrite span_app by exact DH. reflexivity. }
  assert (E2 : (c =? 45) && (next_char u =? 48) && ((next_char (tl (u ++ s)) =? 120) || (next_char (tl (u ++ s)) =? 88)) =
    (c =? 45) && (next_char u =? 48) && ((next_char (tl u) =? 120) || (next_char (tl u) =? 88))).
  { destruct u as [|d [|e u]]; [cbn; now rewrite !andb_false_r|cbn [app tl]; now rewrite DX|reflexivity]. }
  rewrite E2. clear E0 E1 E2. destruct ((c =? 45) && (next_char u =? 48) && _) eqn:C2.
  { destruct u as [|d [|e u]]; try (cbn in C2; rewrite ?andb_false_r in C2; discriminate). cbn [app skipn]. rewrite span_app by exact DH. reflexivity. }
  rewrite span_app by exact DD. destruct (span is_digit u) as [a b]. cbn [fst snd].
  destruct b as [|d b]. { cbn [app]. rewrite !peek_next. destruct (N.eqb_spec (next_char s) 46); [easy|reflexivity]. }
  cbn [app]. rewrite !peek_next, !peek_next2. cbn [next_char tl skipn]. destruct (d =? 46); [cbn [andb]|reflexivity].
  assert (E3 : is_digit (next_char (b ++ s)) = is_digit (next_char b)) by (destruct b; [exact DD|reflexivity]).
  rewrite E3, span_app by exact DD. reflexivity.
Qed.

Lemma scan_dull c u s : dull s -> c <> 34 -> scan c (u ++ s) 0 0 = scan c u 0 0 /\ (snd (scan c u 0 0) <= S (length u))%nat.
Proof.
  intros D NC. unfold scan. replace (c =? 34) with false by (symmetry; now apply N.eqb_neq). cbv zeta. rewrite !peek_next.
  assert (FI : forall n, (n <= S (length u))%nat -> firstn n (c :: u ++ s) = firstn n (c :: u)).
  { intros n L. change (c :: u ++ s) with ((c :: u) ++ s). rewrite firstn_app. replace (n - length (c :: u))%nat with O by (cbn; lia).
    now rewrite app_nil_r. }
  assert (EP : punct c (next_char (u ++ s)) = punct c (next_char u)).
  { destruct u; [|reflexivity]. apply (punct_dull c (next_char s) D). }
  rewrite EP. destruct (punct c (next_char u)) as [[k n]|] eqn:P.
  { cbn [snd]. assert (n <= S (length u))%nat.
    { destruct u as [|d u]. - cbn [length]. rewrite (proj2 (punct_dull c (next_char s) D) k n P). lia.
      - cbn [length]. enough (n <= 2)%nat by lia. destruct (in_dec N.eq_dec c puncts) as [I|I]; [|rewrite punct_none in P by exact I; discriminate].
        cbn in I. clear - P I. decompose [or] I; try contradiction; subst c; cbn in P;
        repeat match type of P with context [if ?b then _ else _] => destruct b end; try discriminate P; injection P as <- <-; lia. }
    rewrite FI by lia. auto. }
  assert (DA : is_alnum (next_char s) = false) by (dulls D; match goal with H : _ = next_char s |- _ => rewrite <- H end; reflexivity).
  destruct (is_alpha c) eqn:AL.
  { rewrite span_app by exact DA. cbn [fst snd]. assert (length (fst (span is_alnum u)) <= length u)%nat.
    { pose proof (span_spec is_alnum u) as SS. destruct (span is_alnum u) as [a b]. destruct SS as (-> & _). rewrite app_length. cbn. lia. }
    rewrite FI by lia. split; [reflexivity|lia]. }
  assert (ED : (c =? 45) && is_digit (next_char (u ++ s)) = (c =? 45) && is_digit (next_char u)).
  { destruct u; [|reflexivity]. cbn [app next_char]. f_equal. dulls D; match goal with H : _ = next_char s |- _ => rewrite <- H end; reflexivity. }
  rewrite ED. destruct (is_digit c || _) eqn:DG; cbn [snd].
  - rewrite number_dull by exact D. assert (number_len c u <= S (length u))%nat.
    { destruct (number_spec c u) as (v & r' & E & LV & _).
      - apply orb_true_iff in DG. destruct DG as [|DG]; [auto|]. apply andb_true_iff in DG. destruct DG as [X Y]. apply N.eqb_eq in X. auto.
      - rewrite <- LV. apply (f_equal (@length N)) in E. rewrite app_length in E. cbn [length] in E. lia. }
    rewrite FI by lia. auto.
  - cbn [length]. split; [reflexivity|lia].
Qed.

Lemma runs_skip u s n : runs u s -> runs (skipn n u) s.
Proof. revert u. induction n as [|n IH]; intros u R; [exact R|]. destruct u as [|c u]; [exact I|]. cbn [skipn]. apply IH. apply R. Qed.

Lemma run_reads n : forall u s o ts, (length u <= n)%nat -> runs u s -> runs u o -> dull s -> dull o -> reads s ts -> reads o ts ->
  exists ts', reads (u ++ s) ts' /\ reads (u ++ o) ts'.
Proof.
  induction n as [|n IH]; intros u s o ts L RS RO DS DO S O; (destruct u as [|c u]; [exists ts; auto|]); [cbn in L; lia|].
  assert (NC : c <> 34) by (intros ->; apply (proj1 RS); cbn; tauto).
  destruct (scan_dull c u s DS NC) as [ES LS]. destruct (scan_dull c u o DO NC) as [EO _].
  destruct (scan c u 0 0) as [t m] eqn:E. cbn [snd] in LS.
  assert (M : (1 <= m)%nat) by (pose proof (scan_kind c u) as X; rewrite E in X; apply X).
  destruct (IH (skipn m (c :: u)) s o ts) as (ts' & A & B); auto using runs_skip.
  { rewrite skipn_length. cbn [length] in *. lia. }
  assert (W : white c = false).
  { destruct RS as [X _]. unfold white, is_space. unfold solid in X. cbn in X.
    destruct (N.eqb_spec c 32); [exfalso; apply X; auto|]. destruct (N.eqb_spec c 9); [exfalso; apply X; auto|].
    destruct (N.eqb_spec c 13); [exfalso; apply X; auto|]. destruct (N.eqb_spec c 10); [exfalso; apply X; auto|]. reflexivity. }
  exists ((tk t, ttext t) :: ts'). split; [apply (rd_token c (u ++ s) t m)|apply (rd_token c (u ++ o) t m)]; auto.
  - intros ->. destruct RS as (_ & X & _). specialize (X eq_refl). cbn in X. split; intros Y; apply X; auto.
  - change (c :: u ++ s) with ((c :: u) ++ s). rewrite skipn_app. replace (m - length (c :: u))%nat with 0%nat by (cbn [length]; lia). exact A.
  - intros ->. destruct RO as (_ & X & _). specialize (X eq_refl). cbn in X. split; intros Y; apply X; auto.
  - change (c :: u ++ o) with ((c :: u) ++ o). rewrite skipn_app. replace (m - length (c :: u))%nat with 0%nat by (cbn [length]; lia). exact B.
Qed.

Definition alike (m : at_) (s o : list N) : Prop :=
  match m with
  | ACode => exists ts, reads s ts /\ reads o ts
  | ARun => exists u s' o' ts, s = u ++ s' /\ o = u ++ o' /\ runs u s' /\ runs u o' /\ dull s' /\ dull o' /\ reads s' ts /\ reads o' ts
  | ABlock => exists ts, reads (past s) ts /\ reads (past o) ts
  end.

Lemma past_white c r : white c = true -> past (c :: r) = past r.
Proof. intros W. rewrite past_cons. in_cases W; subst; reflexivity. Qed.

(** A line comment, whose carriage return (if any) comes last *)
Lemma comment_reads a s ts : ~ In 10 a -> (forall x y, a = x ++ 13 :: y -> y = []) -> s = [] \/ next_char s = 10 -> reads s ts ->
  reads (47 :: 47 :: a ++ s) (match a with 47 :: r => (TDoc, fst (span (fun x => negb (x =? 13)) r)) :: ts | _ => ts end).
Proof.
  intros N10 CR S R.
  assert (A10 : forall l, (forall x, In x l -> In x a) -> all (fun x => negb (x =? 10)) l).
  { intros l H. apply Forall_forall. intros x I. destruct (N.eqb_spec x 10); [subst; exfalso; auto|reflexivity]. }
  destruct (N.eq_dec (next_char a) 47) as [E|NE].
  - destruct a as [|c a]; [discriminate|]. cbn in E. subst c.
    pose proof (span_spec (fun x => negb (x =? 13)) a) as SP. destruct (span _ a) as [b e]. destruct SP as (-> & A & D). cbn [fst].
    assert (X : e = [] \/ e = [13]).
    { destruct e as [|q e]; [auto|]. right. destruct D as [|D]; [discriminate|]. cbn in D. assert (q = 13) as -> by lia.
      now rewrite (CR (47 :: b) e eq_refl). }
    assert (AB : all (fun x => negb (x =? 10) && negb (x =? 13)) b).
    { apply Forall_forall. intros x I. rewrite (proj1 (Forall_forall _ _) A x I).
      destruct (N.eqb_spec x 10); [|reflexivity]. subst. exfalso. apply N10. cbn. right. apply in_or_app. auto. }
    cbn [app]. rewrite <- app_assoc. destruct X as [-> | ->]; cbn [app]; apply rd_doc; auto.
    + destruct S as [S|S]; [auto|]. right. cbn. auto.
    + right. cbn. auto.
    + constructor; auto.
  - assert (E : match a with 47 :: r => (TDoc, fst (span (fun x => negb (x =? 13)) r)) :: ts | _ => ts end = ts).
    { destruct a as [|c a]; [reflexivity|]. cbn in NE. destruct c as [|c]; [reflexivity|]. repeat (destruct c as [c|c|]; try reflexivity). contradiction. }
    rewrite E. apply rd_line; auto. destruct a as [|c a]; [|exact NE]. cbn. destruct S as [-> | ->]; discriminate.
Qed.

Theorem sim_alike m s o : sim m s o -> alike m s o.
Proof.
  induction 1 as [|c s o W S IH|c s o W S IH|c s o I S IH|a s o Q S IH|a s o N10 CR SN ON S IH|s o S IH|s o S IH|s o DS DO S IH|c s o SC C47 S IH
    | |c s o W S IH|c s o W S IH|c s o C42 S IH|s o S IH]; cbn [alike] in *.
  - exists [(TEof, [])]. split; constructor.
  - destruct IH as (ts & A & B). exists ts. split; [now constructor|auto].
  - destruct IH as (ts & A & B). exists ts. split; [auto|now constructor].
  - destruct IH as (ts & A & B).
    assert (X : forall l, reads l ts -> exists k, reads (c :: l) ((k, [c]) :: ts) /\ k = match c with 123 => TLbrace | 125 => TRbrace | 59 => TSemicolon | _ => TComma end).
    { intros l R. eexists. split; [|reflexivity]. cbn in I. decompose [or] I; try contradiction; subst c;
        (eapply (rd_token _ l {| tk := _; ttext := _ |} 1); [reflexivity|discriminate|reflexivity|exact R]). }
    destruct (X s A) as (k & A' & EK). destruct (X o B) as (k' & B' & EK'). subst k k'. eauto.
  - destruct IH as (ts & A & B).
    assert (X : forall l, reads l ts -> reads (34 :: a ++ 34 :: l) ((TString, a) :: ts)).
    { intros l R. apply (rd_token 34 (a ++ 34 :: l) {| tk := TString; tpos := 1; ttext := a; tline := 0 |} (2 + length a)); try easy.
      - unfold scan. cbn [N.eqb Pos.eqb]. rewrite (span_stop _ a (34 :: l)); [reflexivity| |right; reflexivity].
        apply Forall_forall. intros x I. destruct (N.eqb_spec x 34); [subst; contradiction|reflexivity].
      - change (34 :: a ++ 34 :: l) with ((34 :: a) ++ [34] ++ l). rewrite app_assoc, skipn_len_app; [exact R|].
        rewrite app_length. cbn [length]. lia. }
    eauto.
  - destruct IH as (ts & A & B). eexists. split; apply comment_reads; eauto.
  - destruct IH as (ts & A & B). exists ts. split; now constructor.
  - destruct IH as (u & s' & o' & ts & -> & -> & RS & RO & DS & DO & A & B). eapply run_reads; eauto.
  - destruct IH as (ts & A & B). exists [], s, o, ts. repeat split; auto.
  - destruct IH as (u & s' & o' & ts & -> & -> & RS & RO & DS & DO & A & B). exists (c :: u), s', o', ts.
    cbn [runs]. repeat split; auto; apply C47.
  - exists [(TEof, [])]. split; constructor.
  - destruct IH as (ts & A & B). exists ts. rewrite past_white by exact W. auto.
  - destruct IH as (ts & A & B). exists ts. rewrite past_white by exact W. auto.
  - destruct IH as (ts & A & B). exists ts. rewrite !past_cons. destruct (N.eqb_spec c 42) as [->|]; [|cbn [andb]; auto].
    destruct (C42 eq_refl) as [X Y]. apply N.eqb_neq in X, Y. rewrite X, Y. cbn [andb]. auto.
  - destruct IH as (ts & A & B). exists ts. rewrite !past_cons. cbn [next_char N.eqb Pos.eqb andb tl]. auto.
Qed.
