(** The formatted text reads like the source. *)
From Verif Require Import Base LemBase ModelText SpecText LemPunct LemLex ModelFmt SpecFmt LemFmt LemFmtAgain LemFmtCode.
Ltac Zify.zify_post_hook ::= Z.div_mod_to_equations.

(** Shapes of the formatter's tokens *)
Definition plain (c : N) : Prop := solid c /\ c <> 47 /\ c <> 42.
Inductive shape : fkind -> list N -> list N -> Prop :=
| sh_sep k c r : In c [123; 125; 59; 44] -> shape k [c] r
| sh_string a r : shape FString (34 :: a) r
| sh_comment a r : ~ In 10 a -> r = [] \/ next_char r = 10 -> shape FComment (47 :: 47 :: a) r
| sh_solid k c a r : loose (Some k) = false -> braces k = false -> solid c -> (c = 47 -> a = [] /\ next_char r <> 47) -> (c = 42 -> a = []) ->
    Forall plain a -> shape k (c :: a) r.

Lemma next_shape k v r : fmt_next (v ++ r) = Some (k, v, r) -> blanks k = false -> v <> [] -> shape k v r.
Proof.
  intros F B V. destruct v as [|c v]; [easy|]. cbn [app fmt_next] in F.
  destruct (N.eqb_spec c 10) as [->|N10]. { injection F as <- _. discriminate. }
  destruct (is_space c) eqn:SP. { destruct (span _ _). injection F as <- _. discriminate. }
  destruct ((c =? 47) && (peek 0 (v ++ r) =? 47)) eqn:CM.
  { rewrite peek_next in CM. destruct (span _ (v ++ r)) as [a b] eqn:S. injection F as <- -> ->. apply span_stopped in S. destruct S as [A R].
    apply andb_true_iff in CM. destruct CM as [C1 C2]. apply N.eqb_eq in C1, C2. subst c.
    destruct v as [|d v].
    { exfalso. cbn [app] in C2. destruct R as [->|R]; [discriminate|]. rewrite C2 in R. discriminate. }
    cbn in C2. subst d. inversion A as [|? ? A1 A2]; subst. constructor.
    - intros I. apply (proj1 (Forall_forall _ _) A2) in I. discriminate.
    - destruct R as [R|R]; [auto|]. right. lia. }
  assert (NS : ~ In c [32; 9; 13; 10]). { unfold is_space in SP. cbn. intros I. lia. }
  destruct (fpunct c) as [k'|] eqn:FP.
  { injection F as -> <- _. revert FP. unfold fpunct. destruct c as [|c]; [discriminate|].
    repeat (destruct c as [c|c|]; try discriminate); intros [= <-];
    try (apply sh_sep; cbn; tauto); apply sh_solid; try reflexivity; try discriminate; try constructor; unfold solid; cbn; intros I;
      decompose [or] I; discriminate || contradiction. }
  destruct (N.eqb_spec c 34) as [->|N34].
  { destruct (span _ (v ++ r)) as [a b] eqn:S. assert (k = FString) as -> by (destruct b; now injection F). constructor. }
  assert (SC : solid c).
  { unfold solid. cbn. intros I. cbn in NS. decompose [or] I; try (subst c; discriminate); try contradiction; try (subst; tauto). }
  destruct (is_alpha c) eqn:AL.
  { destruct (span _ (v ++ r)) as [a b] eqn:S. injection F as <- -> ->. apply span_stopped in S. destruct S as [A R].
    apply sh_solid; try reflexivity; auto; try (intros ->; discriminate).
    eapply Forall_impl; [|exact A]. intros x X. unfold plain, solid, is_alnum, is_alpha, is_digit in *. cbn. lia. }
  destruct (is_digit c || ((c =? 45) && is_digit (peek 0 (v ++ r)))) eqn:NU.
  { destruct (span _ (v ++ r)) as [a b] eqn:S. injection F as <- -> ->. apply span_stopped in S. destruct S as [A R].
    apply sh_solid; try reflexivity; auto; try (intros ->; discriminate).
    eapply Forall_impl; [|exact A]. intros x X. unfold plain, solid, is_num, is_digit in *. cbn. lia. }
  injection F as <- <- _. apply sh_solid; auto; try reflexivity. intros ->. split; [reflexivity|]. cbn [app N.eqb Pos.eqb andb] in CM. rewrite peek_next in CM.
  now apply N.eqb_neq in CM.
Qed.

(** ** Places of the text *)
Lemma tidy_white p g r : all white g -> p = Code \/ p = Block -> tidy p (g ++ r) = tidy p r.
Proof.
  intros W P. induction W as [|c g C W IH]; [reflexivity|]. rewrite <- IH. cbn [app]. in_cases C; subst c; destruct P as [-> | ->]; reflexivity.
Qed.
Lemma tidy_plain p a r : Forall plain a -> p = Code \/ p = Block -> tidy p (a ++ r) = tidy p r.
Proof.
  intros A P. induction A as [|c a [C [N47 N42]] A IH]; [reflexivity|]. rewrite <- IH. cbn [app tidy].
  assert (c =? 34 = false) as -> by (apply N.eqb_neq; intros ->; apply C; cbn; tauto).
  replace (c =? 47) with false by (symmetry; now apply N.eqb_neq). replace (c =? 42) with false by (symmetry; now apply N.eqb_neq).
  destruct P as [-> | ->]; reflexivity.
Qed.
Lemma tidy_quoted l : tidy Quoted l = true -> exists a r, l = a ++ 34 :: r /\ ~ In 34 a /\ tidy Code r = true.
Proof.
  induction l as [|c l IH]; cbn [tidy]; [discriminate|]. destruct (N.eqb_spec c 34) as [->|N].
  - intros T. exists [], l. auto.
  - intros T. destruct (IH T) as (a & r & -> & NI & T'). exists (c :: a), r. repeat split; auto. intros [|]; auto.
Qed.
Lemma tidy_line a r : ~ In 10 a -> r = [] \/ next_char r = 10 -> tidy Line (a ++ r) = true ->
  (forall x y, a = x ++ 13 :: y -> y = []) /\ tidy Code r = true.
Proof.
  intros N R. induction a as [|c a IH].
  - cbn [app]. intros T. split; [intros [|? ?] y E; discriminate|]. destruct R as [-> | R]; [reflexivity|]. destruct r as [|d r]; [reflexivity|].
    cbn in R. subst d. exact T.
  - cbn [app tidy]. destruct (N.eqb_spec c 10); [exfalso; apply N; left; auto|].
    destruct (N.eqb_spec c 13) as [->|N13].
    + intros T. assert (a = []) as ->.
      { destruct a as [|d a]; [reflexivity|]. cbn [app] in T. apply andb_true_iff in T. destruct T as [T _]. apply N.eqb_eq in T. subst d.
        exfalso. apply N. cbn. auto. }
      split; [intros [|? [|? ?]] y E; injection E; auto; discriminate|]. cbn [app] in T. destruct r as [|d r]; [reflexivity|].
      apply andb_true_iff in T. destruct T as [E T]. destruct R as [R|R]; [discriminate|]. cbn in R. subst d. exact T.
    + intros T. destruct IH as [A B]; [intros I; apply N; now right|exact T|]. split; [|exact B].
      intros [|x xs] y E; injection E; [congruence|]. intros E' ->. now apply (A xs).
Qed.

Lemma solid_not34 c : solid c -> c <> 34.
Proof. intros S ->. apply S. cbn. tauto. Qed.
Lemma solid_not_white c : solid c -> white c = false.
Proof. intros S. destruct (white c) eqn:W; [|reflexivity]. exfalso. apply S. in_cases W; subst; cbn; tauto. Qed.

Lemma tidy_solid c r : tidy Code (c :: r) = true -> solid c -> (c = 47 -> next_char r <> 47 /\ next_char r <> 42) -> tidy Code r = true.
Proof.
  intros T S C. cbn [tidy] in T. destruct (N.eqb_spec c 34) as [E|_]; [now apply solid_not34 in S|].
  destruct (N.eqb_spec c 47) as [E|_]; [|exact T]. destruct (C E) as [A B]. destruct r as [|d r]; [exact T|]. cbn in A, B. revert T.
  destruct d as [|d]; [auto|]. repeat (destruct d as [d|d|]; try (intros T; exact T)); contradiction.
Qed.
Lemma tidy_inside c r : tidy Block (c :: r) = true -> ~ (c = 42 /\ next_char r = 47) -> tidy Block r = true.
Proof.
  intros T C. cbn [tidy] in T. destruct (c =? 34); [discriminate|]. destruct (c =? 47). { now apply andb_true_iff in T. }
  destruct (N.eqb_spec c 42) as [E|_]; [|exact T]. destruct r as [|d r]; [exact T|]. revert T. cbn in C.
  destruct d as [|d]; [auto|]. repeat (destruct d as [d|d|]; try (intros T; exact T)). exfalso. auto.
Qed.

(** ** Heads of cut texts *)
Lemma head_item x r its t : cuts (x :: r) its t -> solid x -> x = 42 \/ (x = 47 /\ next_char r <> 47) ->
  exists k its2, its = ([], k, [x]) :: its2 /\ r = join its2 t /\ cuts r its2 t /\ loose (Some k) = false /\ braces k = false.
Proof.
  intros C S X. remember (x :: r) as l eqn:E. destruct C as [g W|g k v r' its t W F B V C].
  - subst g. inversion W as [|? ? W1 W2]; subst. rewrite solid_not_white in W1 by exact S. discriminate.
  - destruct g as [|c g].
    2:{ exfalso. injection E as -> _. inversion W as [|? ? W1 W2]; subst. rewrite solid_not_white in W1 by exact S. discriminate. }
    cbn [app] in E. pose proof (next_shape _ _ _ F B V) as SH. inversion SH as [k' c r2 I|a r2|a r2 N R|k' c a r2 L BR SC C47 C42 P]; subst.
    + exfalso. injection E as -> _. apply S. cbn in *. tauto.
    + exfalso. injection E as <- _. now apply solid_not34 in S.
    + exfalso. injection E as <- <-. destruct X as [X|[_ X]]; [discriminate|now apply X].
    + injection E as -> E. assert (a = []) as ->. { destruct X as [X|[X _]]; [now apply C42|now apply C47]. }
      cbn [app] in E. subst r'. exists k, its. repeat split; auto. now apply cuts_join in C.
Qed.

Lemma like_head p k x its its' : like p (([], k, [x]) :: its) its' -> loose p = false -> braces k = false ->
  exists its2, its' = ([], k, [x]) :: its2 /\ like (Some k) its its2.
Proof.
  intros L LP BR. inversion L as [|? g g' ? ? ? its2 W E1 E2 E3 L']; subst. exists its2. split; [|exact L'].
  destruct (E2 eq_refl) as [-> | [X|X]]; [reflexivity|congruence|congruence].
Qed.

Lemma drop_left m g s o : all white g -> m = ACode \/ m = ABlock -> sim m s o -> sim m (g ++ s) o.
Proof. intros W M S. induction W; [exact S|]. cbn [app]. destruct M as [-> | ->]; [apply sm_left|apply sb_left]; auto. Qed.
Lemma drop_right m g s o : all white g -> m = ACode \/ m = ABlock -> sim m s o -> sim m s (g ++ o).
Proof. intros W M S. induction W; [exact S|]. cbn [app]. destruct M as [-> | ->]; [apply sm_right|apply sb_right]; auto. Qed.

Lemma white_dull l : white (next_char l) = true -> dull l.
Proof. intros W. in_cases W; unfold dull; match goal with H : _ = next_char l |- _ => rewrite <- H end; cbn; tauto. Qed.
Lemma all_dull g : all white g -> dull g.
Proof. intros W. inversion W; subst; [cbn; auto|]. now apply white_dull. Qed.

Lemma run_plain a s o : Forall plain a -> sim ARun s o -> sim ARun (a ++ s) (a ++ o).
Proof. intros A S. induction A as [|c a [C [N47 _]] A IH]; [exact S|]. cbn [app]. apply sr_char; auto; intros E; contradiction. Qed.
Lemma block_plain a s o : Forall plain a -> sim ABlock s o -> sim ABlock (a ++ s) (a ++ o).
Proof. intros A S. induction A as [|c a [C [_ N42]] A IH]; [exact S|]. cbn [app]. apply sb_char; auto; intros E; contradiction. Qed.

(** The continuation after a token, in the program *)
Lemma goes_47 k r r' : goes_on k r r' -> ~ In (next_char r) [47; 42] -> ~ In (next_char r') [47; 42].
Proof.
  intros G N. destruct (goes_next _ _ _ G) as [E|W]; [now rewrite E|]. in_cases W; match goal with H : _ = next_char r' |- _ => rewrite <- H end;
    cbn; intros I; decompose [or] I; discriminate || contradiction.
Qed.

Lemma sim_tail t : all white t -> sim ACode t [10] /\ sim ARun t [10] /\ sim ABlock t [10].
Proof.
  intros W. assert (W10 : all white [10]) by (constructor; [reflexivity|constructor]).
  assert (SC : sim ACode t [10]) by (rewrite <- (app_nil_r t); apply drop_left; auto; apply (drop_right ACode [10] [] []); auto; constructor).
  assert (SB : sim ABlock t [10]) by (rewrite <- (app_nil_r t); apply drop_left; auto; apply (drop_right ABlock [10] [] []); auto; constructor).
  repeat split; auto. apply sr_stop; auto; now apply all_dull.
Qed.

Definition sims (p : option fkind) (its its' : list item) (t : list N) : Prop :=
  (tidy Code (join its t) = true -> sim ACode (join its t) (join its' [10])) /\
  (tidy Code (join its t) = true -> loose p = false -> sim ARun (join its t) (join its' [10])) /\
  (tidy Block (join its t) = true -> p <> None -> sim ABlock (join its t) (join its' [10])).

Section Step.
Variable n : nat.
Hypothesis IH : forall p its its' t, (length its <= n)%nat -> cuts (join its t) its t -> like p its its' -> sims p its its' t.
Variables (k : fkind) (v : list N) (its its' : list item) (t : list N).
Hypothesis LN : (length its <= n)%nat.
Hypothesis F : fmt_next (v ++ join its t) = Some (k, v, join its t).
Hypothesis B : blanks k = false.
Hypothesis V : v <> [].
Hypothesis C : cuts (join its t) its t.
Hypothesis L : like (Some k) its its'.

Lemma step_goes : goes_on k (join its t) (join its' [10]).
Proof. apply like_next; [exact L|eapply cuts_v; eauto|eapply cuts_t; eauto]. Qed.

(** The token and what follows, in the program; directly after another token unless it starts a new run *)
Lemma step_code : tidy Code (v ++ join its t) = true ->
  sim ACode (v ++ join its t) (v ++ join its' [10]) /\
  (sim ARun (v ++ join its t) (v ++ join its' [10])).
Proof.
  intros T. destruct (IH _ _ _ _ LN C L) as (IA & IB & IC). pose proof step_goes as G.
  pose proof (next_shape _ _ _ F B V) as SH. revert T.
  inversion SH as [k' c r2 I E1 E2 E3|a r2 E1 E2 E3|a r2 N R E1 E2 E3|k' c a r2 LO BR SC C47 C42 P E1 E2 E3]; subst v; intros T.
  - cbn [app] in *.
    assert (T' : tidy Code (join its t) = true) by (cbn in I; decompose [or] I; try contradiction; subst c; exact T).
    assert (X : sim ACode (c :: join its t) (c :: join its' [10])) by (apply sm_sep; auto). split; [exact X|].
    apply sr_stop; auto; unfold dull; cbn [next_char]; cbn in *; tauto.
  - cbn [app] in T. cbn [tidy N.eqb Pos.eqb] in T. assert (SHT : shut (34 :: a) /\ tidy Code (join its t) = true).
    { destruct (tidy_quoted _ T) as (b & r & E & NI & T'). cbn [app] in F. cbn [fmt_next] in F. cbn [N.eqb Pos.eqb is_space orb andb fpunct] in F.
      rewrite E in F. rewrite (span_stop _ b (34 :: r)) in F; [| |right; reflexivity].
      - injection F as _ <- <-. split; [exists b; auto|exact T'].
      - apply Forall_forall. intros x I. destruct (N.eqb_spec x 34); [subst; contradiction|reflexivity]. }
    destruct SHT as [(b & E & NI) T']. injection E as ->. cbn [app]. rewrite <- !app_assoc. cbn [app].
    assert (X : sim ACode (34 :: b ++ 34 :: join its t) (34 :: b ++ 34 :: join its' [10])) by (apply sm_string; auto). split; [exact X|].
    apply sr_stop; auto; unfold dull; cbn; tauto.
  - cbn [app] in T |- *. cbn [tidy N.eqb Pos.eqb] in T. destruct (tidy_line a _ N R T) as [CR T'].
    assert (X : sim ACode (47 :: 47 :: a ++ join its t) (47 :: 47 :: a ++ join its' [10])).
    { apply sm_line; auto. destruct G as [G|[_ G]]; [|right; now apply G].
      destruct (join its t), (join its' [10]); try discriminate; auto. injection G as ->. destruct R as [|R]; [discriminate|auto]. }
    split; [exact X|]. apply sr_stop; auto; unfold dull; cbn; tauto.
  - cbn [app] in T |- *.
    destruct (N.eq_dec c 47) as [->|NC].
    + destruct (C47 eq_refl) as [-> N47]. cbn [app] in *. destruct (N.eq_dec (next_char (join its t)) 42) as [E42|N42].
      * destruct (join its t) as [|d r] eqn:EJ; [discriminate|]. cbn in E42. subst d. cbn [tidy N.eqb Pos.eqb] in T.
        assert (S42 : solid 42) by (unfold solid; cbn; intros I; decompose [or] I; discriminate || contradiction).
        destruct (head_item 42 r its t C S42 (or_introl eq_refl)) as (k2 & its2 & -> & -> & C2 & LO2 & BR2).
        destruct (like_head _ _ _ _ _ L LO BR2) as (its2' & -> & L2). cbn [join app].
        destruct (IH (Some k2) its2 its2' t) as (_ & _ & X); auto. { cbn in LN. lia. }
        assert (Y : sim ACode (47 :: 42 :: join its2 t) (47 :: 42 :: join its2' [10])) by (apply sm_block; apply X; easy).
        split; [exact Y|]. apply sr_stop; auto; unfold dull; cbn; tauto.
      * assert (T' : tidy Code (join its t) = true) by (apply (tidy_solid 47); auto).
        assert (N1 : ~ In (next_char (join its t)) [47; 42]) by (cbn; intros I; decompose [or] I; auto).
        assert (X : sim ARun (47 :: join its t) (47 :: join its' [10])).
        { apply sr_char; auto. intros _. split; [exact N1|]. eapply goes_47; eauto. }
        split; [now apply sm_run|exact X].
    + assert (T1 : tidy Code (a ++ join its t) = true) by (apply (tidy_solid c); auto; intros; contradiction).
      rewrite tidy_plain in T1 by auto.
      assert (X : sim ARun (c :: a ++ join its t) (c :: a ++ join its' [10])).
      { apply sr_char; [auto|intros; contradiction|]. apply run_plain; auto. }
      split; [now apply sm_run|exact X].
Qed.

Lemma step_block : tidy Block (v ++ join its t) = true -> sim ABlock (v ++ join its t) (v ++ join its' [10]).
Proof.
  intros T. destruct (IH _ _ _ _ LN C L) as (IA & IB & IC). pose proof step_goes as G.
  pose proof (next_shape _ _ _ F B V) as SH. revert T.
  inversion SH as [k' c r2 I E1 E2 E3|a r2 E1 E2 E3|a r2 N R E1 E2 E3|k' c a r2 LO BR SC C47 C42 P E1 E2 E3]; subst v; intros T.
  - cbn [app] in *. assert (c <> 42) by (intros ->; cbn in I; decompose [or] I; discriminate || contradiction).
    apply sb_char; [intros; contradiction|]. apply IC; [|easy]. apply tidy_inside in T; auto. intros [? _]. contradiction.
  - discriminate.
  - discriminate.
  - cbn [app] in T |- *. destruct (N.eq_dec c 42) as [->|NC].
    + rewrite (C42 eq_refl) in *. cbn [app] in *. destruct (N.eq_dec (next_char (join its t)) 47) as [E47|N47].
      * destruct (join its t) as [|d r] eqn:EJ; [discriminate|]. cbn in E47. subst d. cbn [tidy N.eqb Pos.eqb] in T.
        apply andb_true_iff in T. destruct T as [T1 T2]. apply negb_true_iff, N.eqb_neq in T1.
        assert (S47 : solid 47) by (unfold solid; cbn; intros I; decompose [or] I; discriminate || contradiction).
        destruct (head_item 47 r its t C S47 (or_intror (conj eq_refl T1))) as (k2 & its2 & -> & -> & C2 & LO2 & BR2).
        destruct (like_head _ _ _ _ _ L LO BR2) as (its2' & -> & L2). cbn [join app].
        destruct (IH (Some k2) its2 its2' t) as (X & _ & _); auto. { cbn in LN. lia. }
        apply sb_close. auto.
      * apply sb_char.
        -- intros _. split; [exact N47|]. destruct (goes_next _ _ _ G) as [E|W]; [now rewrite E|]. intros E. rewrite E in W. discriminate.
        -- apply IC; [|easy]. apply tidy_inside in T; auto. intros [_ ?]. contradiction.
    + apply sb_char; [intros; contradiction|]. apply block_plain; auto. apply IC; [|easy].
      apply tidy_inside in T; [|intros [? _]; contradiction]. rewrite tidy_plain in T; auto.
Qed.
End Step.

Theorem like_sim n : forall p its its' t, (length its <= n)%nat -> cuts (join its t) its t -> like p its its' -> sims p its its' t.
Proof.
  induction n as [|n IH]; intros p its its' t LN C L; (destruct its as [|[[g k] v] its];
    [inversion L; subst; destruct (sim_tail t) as (A1 & A2 & A3); [now inversion C|repeat split; auto]|]); cbn [length] in LN; [lia|].
  inversion L as [|? ? g' ? ? ? its2 W' E1 E2 E3 L']; subst. unfold sims. cbn [join] in *.
  inversion C as [|g0 k0 v0 r its0 t0 W F B V C0 X1 X2 X3]; subst. apply app_inv_head, app_inv_head in X1. subst r. clear C. rename C0 into C.
  assert (X := step_code n IH k v its its2 t ltac:(lia) F B V C L').
  assert (Y := step_block n IH k v its its2 t ltac:(lia) F B V C L').
  repeat split.
  - intros T. rewrite tidy_white in T by auto. apply drop_left; auto. apply drop_right; auto. now apply X.
  - intros T LP. rewrite tidy_white in T by auto. assert (PN : p <> None) by (now destruct p).
    destruct g' as [|c g'].
    + rewrite (E1 PN eq_refl). cbn [app]. now apply X.
    + inversion W' as [|? ? Wc Wg]; subst. apply sr_stop.
      * destruct g as [|d g]; [|apply all_dull in W; exact W]. destruct (E2 eq_refl) as [|[Z|Z]]; [discriminate|congruence|].
        pose proof (next_shape _ _ _ F B V) as SH. cbn [app]. unfold dull.
        inversion SH; subst; cbn [app next_char]; cbn in *; try tauto. congruence.
      * now apply white_dull.
      * apply drop_left; auto. apply (drop_right ACode (c :: g')); auto. now apply X.
  - intros T PN. rewrite tidy_white in T by auto. apply drop_left; auto. apply drop_right; auto.
Qed.

Theorem format_code src : tidy Code src = true -> exists o ts to, format_source src = Some o /\
  lex src = Some ts /\ lex o = Some to /\ code to = code ts.
Proof.
  intros T. destruct (cuts_exists (length src) src (Nat.le_refl _)) as (its & t & C).
  exists (join (regap 0 None its) [10]). pose proof (format_cut _ _ _ C) as F. pose proof (cuts_join _ _ _ C) as E. subst src.
  destruct (like_sim (length its) None its _ t (Nat.le_refl _) C (like_regap _ _ _ C 0 None)) as (X & _).
  destruct (sim_alike _ _ _ (X T)) as (ts & R1 & R2).
  destruct (reads_lex _ _ _ (Nat.le_refl _) R1 _ 0 1 (Nat.lt_succ_diag_r _)) as (t1 & L1 & <-).
  destruct (reads_lex _ _ _ (Nat.le_refl _) R2 _ 0 1 (Nat.lt_succ_diag_r _)) as (t2 & L2 & E2).
  exists t1, t2. auto.
Qed.
