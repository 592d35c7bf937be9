(** Completions: the scan in front of the cursor, and what is offered. *)
From Coq Require Import ZArith Strings.String Lia ZifyBool ZifyNat ZifyN.
From Verif Require Import Base ModelWord ModelTrans ModelVM ModelText ModelNames ModelParse ModelSchema ModelLsp ModelDiag ModelComplete SpecText SpecDiag SpecMessage SpecSource SpecGrammar SpecComplete.
From Verif Require Import LemBase.
Local Open Scope N_scope.

(** ** The cursor *)
Lemma position_mono l : forall a c, (a <= fst (position l a c))%Z.
Proof. induction l as [|x l IH]; intros; cbn; [lia|]. destruct (x =? 10); [specialize (IH (a + 1)%Z 0%Z)|specialize (IH a (c + 1)%Z)]; lia. Qed.
Lemma line_start_0 l z : (z <= 0)%Z -> line_start l z = 0.
Proof. intros L. destruct l; cbn; [reflexivity|]. replace (z <=? 0)%Z with true by lia. now rewrite Bool.orb_true_r. Qed.
Lemma position_start front post : ~ In 0 front -> forall l c line ch, position front l c = (line, ch) ->
  (Z.of_N (line_start (front ++ post) (line - l)) + ch = Z.of_N (lenN front) + (if (line =? l)%Z then c else 0))%Z.
Proof.
  induction front as [|x front IH]; intros NI l c line ch P; cbn [position] in P.
  - injection P as <- <-. rewrite line_start_0 by lia. rewrite Z.eqb_refl. cbn. lia.
  - assert (X : (x =? 0) = false) by (apply N.eqb_neq; intros ->; apply NI; now left). assert (NI' : ~ In 0 front) by (intros I; apply NI; now right).
    rewrite lenN_cons. cbn [app line_start]. rewrite X. cbn [orb]. destruct (x =? 10) eqn:NL.
    + pose proof (position_mono front (l + 1)%Z 0%Z) as M. rewrite P in M. cbn [fst] in M. replace (line - l <=? 0)%Z with false by lia.
      specialize (IH NI' _ _ _ _ P). replace (line - l - 1)%Z with (line - (l + 1))%Z by lia. destruct (line =? l + 1)%Z; replace (line =? l)%Z with false by lia; lia.
    + pose proof (position_mono front l (c + 1)%Z) as M. rewrite P in M. cbn [fst] in M. specialize (IH NI' _ _ _ _ P).
      destruct (line =? l)%Z eqn:LL.
      * replace (line - l <=? 0)%Z with true by lia. rewrite line_start_0 in IH by lia. lia.
      * replace (line - l <=? 0)%Z with false by lia. lia.
Qed.
Lemma cursor_eq src front line ch : cursor_at src front line ch -> cursor src line ch = lenN front.
Proof.
  intros ((post & ->) & P & NI & B). unfold cursor. pose proof (position_start front post NI _ _ _ _ P) as X. rewrite Z.sub_0_r in X.
  replace (if (line =? 0)%Z then 0%Z else 0%Z) with 0%Z in X by (destruct (line =? 0)%Z; reflexivity). rewrite X, Z.add_0_r.
  rewrite Z.mod_small by lia. apply N2Z.id.
Qed.

(** ** The tokens in front of it *)
Lemma tokens_after pos l ts : tokens_of pos l ts -> Forall (fun t => pos <= tpos t) ts.
Proof.
  induction 1 as [pos g e B K T P|pos g t before after r ts B P T TS IH]; [repeat constructor; lia|].
  constructor; [lia|]. eapply Forall_impl; [|exact IH]. cbn. lia.
Qed.
Lemma filter_none {A} (f : A -> bool) l : Forall (fun x => f x = false) l -> filter f l = [].
Proof. induction 1 as [|x l X F IH]; cbn; [reflexivity|]. now rewrite X. Qed.
Lemma spelled_kind k s r : spelled k s r -> k <> TEof.
Proof. intros X ->. inversion X as [? ? ? I|? ? ? I| | |]; subst; cbn in I; repeat (destruct I as [I|I]; [discriminate|]); destruct I. Qed.
Lemma piece_kind k b s a r : piece k b s a r -> k <> TEof.
Proof. intros X. inversion X; subst; try discriminate. eapply spelled_kind; eauto. Qed.
Lemma scan_front off pos l ts : tokens_of pos l ts -> off <= pos + lenN l -> forall s,
  scan_tokens off ts s = fold_left scan_token (filter (fun t => tpos t <? off) ts) s.
Proof.
  induction 1 as [pos g e B K T P|pos g t before after r ts B P T TS IH]; intros L s; cbn [scan_tokens filter].
  - unfold is_kind. rewrite K. destruct (kind_eq_dec TEof TEof) as [_|N]; [|congruence]. replace (tpos e <? off) with false by lia. reflexivity.
  - unfold is_kind. destruct (kind_eq_dec (tk t) TEof) as [X|_]; [exfalso; eapply piece_kind; eauto|].
    destruct (off <=? tpos t) eqn:O.
    + replace (tpos t <? off) with false by lia. rewrite filter_none; [reflexivity|]. eapply Forall_impl; [|exact (tokens_after _ _ _ TS)]. cbn. lia.
    + replace (tpos t <? off) with true by lia. cbn [fold_left]. apply IH. rewrite !lenN_app in L. lia.
Qed.

(** ** Brackets *)
Section bracket.
Variables (heads : list kind) (lk rk : kind).
Hypothesis (LK : lk <> rk) (LI : lk <> TIdentifier) (LH : ~ In lk heads) (IH0 : ~ In TIdentifier heads).
Definition is_head (t : token) : bool := existsb (fun k => is_kind k t) heads.
Lemma is_head_iff t : is_head t = true <-> In (tk t) heads.
Proof.
  unfold is_head. rewrite existsb_exists. unfold is_kind. split.
  - intros (k & I & X). destruct (kind_eq_dec (tk t) k); [now subst|discriminate].
  - intros I. exists (tk t). split; [exact I|]. now destruct (kind_eq_dec _ _).
Qed.
(** The last opening, looking back, and what follows it *)
Fixpoint last_open (back : list token) (after : list token) : option (list N * list token) :=
  match back with
  | [] => None
  | t :: r =>
    match r with
    | n :: h :: _ => if is_kind lk t && (is_kind TIdentifier n && is_head h) then Some (ttext n, after) else last_open r (t :: after)
    | _ => last_open r (t :: after)
    end
  end.
Lemma last_open_after l : forall after, last_open l after = option_map (fun x => (fst x, snd x ++ after)) (last_open l []).
Proof.
  induction l as [|t l IH]; intros after; cbn [last_open]; [reflexivity|].
  assert (X : last_open l (t :: after) = option_map (fun x => (fst x, snd x ++ after)) (last_open l [t])).
  { rewrite (IH (t :: after)), (IH [t]). destruct (last_open l []) as [(d, b)|]; cbn; [|reflexivity]. now rewrite <- app_assoc. }
  destruct l as [|n [|h l]]; try exact X. destruct (_ && _); [reflexivity|exact X].
Qed.
Fixpoint deep (l : list token) (d : Z) : Z := match l with [] => d | t :: r => deep r (if is_kind lk t then d + 1 else if is_kind rk t then d - 1 else d)%Z end.
Fixpoint never (l : list token) (d : Z) : bool := match l with [] => true | t :: r =>
  let d := (if is_kind lk t then d + 1 else if is_kind rk t then d - 1 else d)%Z in (0 <=? d)%Z && never r d end.
Lemma deep_app a b d : deep (a ++ b) d = deep b (deep a d).
Proof. revert d. induction a as [|x a IH]; intros; cbn; [reflexivity|apply IH]. Qed.
Lemma never_app a b d : never (a ++ b) d = never a d && never b (deep a d).
Proof. revert d. induction a as [|x a IH]; intros; cbn [app never deep]; [reflexivity|]. rewrite IH. now rewrite Bool.andb_assoc. Qed.
Lemma deep_count l : forall d, deep l d = (d + Z.of_nat (count lk l) - Z.of_nat (count rk l))%Z.
Proof.
  induction l as [|t l IH]; intros d; cbn [deep]; [unfold count; cbn; lia|]. rewrite IH. unfold count, is_kind. cbn [filter].
  destruct (kind_eq_dec (tk t) lk) as [A|A], (kind_eq_dec (tk t) rk) as [B|B]; cbn [List.length]; try lia. congruence.
Qed.
Lemma never_iff l : forall d, (0 <= d)%Z -> never l d = true <-> forall a b, l = a ++ b -> (0 <= deep a d)%Z.
Proof.
  induction l as [|t l IH]; intros d D; cbn [never].
  - split; [|reflexivity]. intros _ a b X. symmetry in X. apply app_eq_nil in X as (-> & ->). exact D.
  - set (d' := (if is_kind lk t then d + 1 else if is_kind rk t then d - 1 else d)%Z). rewrite Bool.andb_true_iff. split.
    + intros (A & B) a b X. destruct a as [|x a]; [exact D|]. injection X as <- ->. cbn [deep]. fold d'. apply (proj1 (IH d' ltac:(lia)) B a b eq_refl).
    + intros F. assert (A : (0 <= d')%Z) by exact (F [t] l eq_refl). split; [lia|]. apply (IH d' A). intros a b ->. exact (F (t :: a) b eq_refl).
Qed.
(** The scan with only these brackets *)
Definition st := (option (list N * Z) * Z * token * token)%type.
Definition next (s : st) (t : token) : st :=
  let '(o, d, p1, p2) := s in
  (if is_kind lk t then (if is_kind TIdentifier p1 && is_head p2 then Some (ttext p1, d + 1)%Z else o)
   else if is_kind rk t then closes o d else o,
   (if is_kind lk t then d + 1 else if is_kind rk t then d - 1 else d)%Z, t, p1).
Definition start : st := (None, 0%Z, token0, token0).
Definition prevs (back : list token) : token * token := match back with [] => (token0, token0) | [a] => (a, token0) | a :: b :: _ => (a, b) end.
Lemma scan_spec l : is_kind TIdentifier token0 = false -> (is_head token0 = false) ->
  let '(o, d, p1, p2) := fold_left next l start in
  (p1, p2) = prevs (rev l) /\
  match last_open (rev l) [] with
  | Some (n, b) => if never b 0 then exists k, o = Some (n, k) /\ d = (k + deep b 0)%Z else o = None
  | None => o = None
  end.
Proof.
  intros T0 H0. induction l as [|t l IH] using rev_ind; [split; reflexivity|]. rewrite fold_left_app, rev_app_distr. cbn [fold_left rev app].
  destruct (fold_left next l start) as (((o & d) & p1) & p2). destruct IH as (PV & IH). cbn [next]. split.
  - destruct (rev l) as [|a [|b r]]; injection PV as -> ->; reflexivity.
  - set (os := is_kind lk t && (is_kind TIdentifier p1 && is_head p2)).
    assert (LO : last_open (t :: rev l) [] = if os then Some (ttext p1, []) else option_map (fun x => (fst x, snd x ++ [t])) (last_open (rev l) [])).
    { unfold os. rewrite <- last_open_after. cbn [last_open]. destruct (rev l) as [|a [|b r]]; injection PV as -> ->; cbn [prevs].
      - rewrite T0. cbn. now rewrite Bool.andb_false_r.
      - rewrite H0. now rewrite !Bool.andb_false_r.
      - reflexivity. }
    rewrite LO. destruct os eqn:OS.
    + unfold os in OS. apply Bool.andb_true_iff in OS as (A & B). rewrite A, B. cbn [never deep]. exists (d + 1)%Z. split; [reflexivity|lia].
    + assert (O : (if is_kind lk t then if is_kind TIdentifier p1 && is_head p2 then Some (ttext p1, (d + 1)%Z) else o else if is_kind rk t then closes o d else o)
                  = if is_kind lk t then o else if is_kind rk t then closes o d else o).
      { unfold os in OS. destruct (is_kind lk t); [|reflexivity]. cbn [andb] in OS. now rewrite OS. }
      rewrite O. clear O OS. destruct (last_open (rev l) []) as [(n, b)|]; cbn [option_map fst snd].
      * rewrite never_app, deep_app. cbn [never deep]. destruct (never b 0) eqn:NB; cbn [andb].
        -- destruct IH as (k & -> & ->). assert (D0 : (0 <= deep b 0)%Z) by (apply (proj1 (never_iff b 0%Z ltac:(lia)) NB b []); now rewrite app_nil_r).
           rewrite Bool.andb_true_r. unfold closes. destruct (is_kind lk t); [replace (0 <=? deep b 0 + 1)%Z with true by lia; exists k; split; [reflexivity|lia]|].
           destruct (is_kind rk t).
           ++ destruct (k + deep b 0 =? k)%Z eqn:Q; [replace (0 <=? deep b 0 - 1)%Z with false by lia; reflexivity|].
              replace (0 <=? deep b 0 - 1)%Z with true by lia. exists k. split; [reflexivity|lia].
           ++ replace (0 <=? deep b 0)%Z with true by lia. exists k. split; [reflexivity|lia].
        -- subst o. destruct (is_kind lk t); [reflexivity|]. destruct (is_kind rk t); reflexivity.
      * subst o. destruct (is_kind lk t); [reflexivity|]. destruct (is_kind rk t); reflexivity.
Qed.
Definition no_open (inner : list token) : Prop :=
  forall a h n o b, inner = a ++ h :: n :: o :: b -> In (tk h) heads -> tk n = TIdentifier -> tk o = lk -> False.
Lemma no_open_front l x : no_open (l ++ [x]) -> no_open l.
Proof. intros F a h n o b -> A B C. apply (F a h n o (b ++ [x])); auto. rewrite <- app_assoc. reflexivity. Qed.
Lemma is_kind_iff k t : is_kind k t = true <-> tk t = k.
Proof. unfold is_kind. destruct (kind_eq_dec (tk t) k); split; congruence. Qed.
Lemma last_open_found before h n o : In (tk h) heads -> tk n = TIdentifier -> tk o = lk -> forall inner, no_open inner ->
  last_open (rev inner ++ o :: n :: h :: before) [] = Some (ttext n, inner).
Proof.
  intros H K O inner. induction inner as [|x inner IH] using rev_ind; intros F.
  - cbn [rev app last_open]. apply is_kind_iff in K, O. apply is_head_iff in H. now rewrite K, O, H.
  - specialize (IH (no_open_front _ _ F)). rewrite rev_app_distr. cbn [rev app]. cbn [last_open].
    assert (X : last_open (rev inner ++ o :: n :: h :: before) [x] = Some (ttext n, inner ++ [x])) by (rewrite last_open_after, IH; reflexivity).
    destruct (rev inner) as [|y [|z r]] eqn:R; cbn [app] in *.
    + replace (is_kind TIdentifier o) with false; [rewrite Bool.andb_false_r; exact X|]. symmetry. apply Bool.not_true_is_false. rewrite is_kind_iff. congruence.
    + replace (is_head o) with false; [rewrite !Bool.andb_false_r; exact X|]. symmetry. apply Bool.not_true_is_false. rewrite is_head_iff. congruence.
    + destruct (_ && _) eqn:Q; [|exact X]. exfalso. apply Bool.andb_true_iff in Q as (Q1 & Q). apply Bool.andb_true_iff in Q as (Q2 & Q3).
      apply (F (rev r) z y x []).
      * apply (f_equal (@rev _)) in R. rewrite rev_involutive in R. rewrite R. cbn [rev]. rewrite <- !app_assoc. reflexivity.
      * now apply is_head_iff.
      * now apply is_kind_iff.
      * now apply is_kind_iff.
Qed.
Lemma snoc_split {A} (l : list A) x a h n o b : l ++ [x] = a ++ h :: n :: o :: b ->
  (b = [] /\ o = x /\ l = a ++ [h; n]) \/ exists b', l = a ++ h :: n :: o :: b'.
Proof.
  intros X. destruct b as [|y b _] using rev_ind.
  - left. replace (a ++ [h; n; o]) with ((a ++ [h; n]) ++ [o]) in X by now rewrite <- app_assoc. apply app_inj_tail in X as (-> & ->). auto.
  - right. exists b. replace (a ++ h :: n :: o :: b ++ [y]) with ((a ++ h :: n :: o :: b) ++ [y]) in X by now rewrite <- app_assoc.
    now apply app_inj_tail in X as (-> & _).
Qed.
Lemma last_open_is back : forall name b, last_open back [] = Some (name, b) -> exists before h n o,
  back = rev b ++ o :: n :: h :: before /\ In (tk h) heads /\ tk n = TIdentifier /\ ttext n = name /\ tk o = lk /\ no_open b.
Proof.
  induction back as [|t back IH]; intros name b X; cbn [last_open] in X; [discriminate|].
  assert (Y : last_open back [t] = Some (name, b) -> (forall y z r, back = y :: z :: r -> is_kind lk t && (is_kind TIdentifier y && is_head z) = false) ->
    exists before h n o, t :: back = rev b ++ o :: n :: h :: before /\ In (tk h) heads /\ tk n = TIdentifier /\ ttext n = name /\ tk o = lk /\ no_open b).
  { clear X. intros X NO. rewrite last_open_after in X. destruct (last_open back []) as [(d, b0)|] eqn:L; cbn in X; [|discriminate]. injection X as -> <-.
    destruct (IH _ _ eq_refl) as (before & h & n & o & B & H & K & TT & O & F). exists before, h, n, o. rewrite rev_app_distr. cbn [rev app].
    split; [now rewrite B|]. split; [exact H|]. split; [exact K|]. split; [exact TT|]. split; [exact O|].
    intros a h' n' o' c S H' K' O'. destruct (snoc_split _ _ _ _ _ _ _ S) as [(-> & -> & S')|(b' & S')].
    - subst b0. rewrite rev_app_distr in B. cbn [rev app] in B. specialize (NO _ _ _ B). apply is_kind_iff in K', O'. apply is_head_iff in H'. rewrite K', O', H' in NO. discriminate.
    - eapply F; eauto. }
  destruct back as [|n [|h back]]; [apply Y; [exact X|discriminate]|apply Y; [exact X|discriminate]|].
  destruct (_ && _) eqn:Q.
  - injection X as <- <-. apply Bool.andb_true_iff in Q as (Q1 & Q). apply Bool.andb_true_iff in Q as (Q2 & Q3).
    exists back, h, n, t. split; [reflexivity|]. split; [now apply is_head_iff|]. split; [now apply is_kind_iff|]. split; [reflexivity|]. split; [now apply is_kind_iff|].
    intros a ? ? ? ? S. now apply app_cons_not_nil in S.
  - apply Y; [exact X|]. intros y z r B. injection B as -> -> ->. exact Q.
Qed.
Lemma bracket_iff name ts : bracket_open heads lk rk name ts <-> exists b, last_open (rev ts) [] = Some (name, b) /\ never b 0 = true.
Proof.
  assert (CN : forall b, never b 0 = true <-> forall a c, b = a ++ c -> (count rk a <= count lk a)%nat).
  { intros b. rewrite never_iff by lia. split; intros F a c X; specialize (F a c X); rewrite ?deep_count in *; lia. }
  split.
  - intros (before & h & n & o & inner & -> & H & K & <- & O & F & C). exists inner. split; [|now apply CN].
    rewrite rev_app_distr. cbn [rev]. rewrite <- !app_assoc. cbn [app]. apply last_open_found; auto.
  - intros (b & L & NB). destruct (last_open_is _ _ _ L) as (before & h & n & o & B & H & K & TT & O & F).
    exists (rev before), h, n, o, b. split; [|split; [exact H|]; split; [exact K|]; split; [exact TT|]; split; [exact O|]; split; [exact F|now apply CN]].
    apply (f_equal (@rev _)) in B. rewrite rev_involutive, rev_app_distr in B. cbn [rev] in B. rewrite rev_involutive, <- !app_assoc in B. exact B.
Qed.
Lemma scan_open l name : is_kind TIdentifier token0 = false -> is_head token0 = false ->
  (exists k, fst (fst (fst (fold_left next l start))) = Some (name, k)) <-> bracket_open heads lk rk name l.
Proof.
  intros T0 H0. pose proof (scan_spec l T0 H0) as S. destruct (fold_left next l start) as (((o & d) & p1) & p2). cbn [fst]. destruct S as (_ & S). rewrite bracket_iff.
  destruct (last_open (rev l) []) as [(n, b)|].
  - destruct (never b 0) eqn:NB.
    + destruct S as (k & -> & _). split; [intros (k' & X); injection X as -> ->; eauto|]. intros (b' & X & _). injection X as -> ->. eauto.
    + subst o. split; [intros (k & X); discriminate|]. intros (b' & X & Y). injection X as -> ->. congruence.
  - subst o. split; [intros (k & X); discriminate|]. intros (b' & X & _). discriminate.
Qed.
Lemma scan_prevs l : is_kind TIdentifier token0 = false -> is_head token0 = false -> (snd (fst (fold_left next l start)), snd (fold_left next l start)) = prevs (rev l).
Proof. intros T0 H0. pose proof (scan_spec l T0 H0) as S. destruct (fold_left next l start) as (((o & d) & p1) & p2). apply S. Qed.
End bracket.

Definition scan_deco := next [TAt] TLparen TRparen.
Definition scan_body := next [TStruct; TPacket] TLbrace TRbrace.
Lemma scan_both l :
  (c_deco (fold_left scan_token l scan0), c_paren (fold_left scan_token l scan0), c_prev (fold_left scan_token l scan0), c_prev2 (fold_left scan_token l scan0)) = fold_left scan_deco l start /\
  (c_struct (fold_left scan_token l scan0), c_brace (fold_left scan_token l scan0), c_prev (fold_left scan_token l scan0), c_prev2 (fold_left scan_token l scan0)) = fold_left scan_body l start.
Proof.
  induction l as [|t l IH] using rev_ind; [split; reflexivity|]. rewrite !fold_left_app. cbn [fold_left]. destruct (fold_left scan_token l scan0) as [o1 d1 o2 d2 p1 p2].
  cbn [c_deco c_paren c_struct c_brace c_prev c_prev2] in IH. destruct IH as (<- & <-). unfold scan_token, scan_deco, scan_body, next, opens_decorator, opens_struct, is_head. cbn [c_deco c_paren c_struct c_brace c_prev c_prev2 existsb].
  rewrite !Bool.orb_false_r. assert (K : forall k, is_kind k t = if kind_eq_dec (tk t) k then true else false) by reflexivity. rewrite !K. destruct (tk t); cbn; split; reflexivity.
Qed.
