(** The analysis of a text reads only the files it opens: the same with another text in a file it does not open. *)
From Coq Require Import Strings.String Lia.
From Verif Require Import Base ModelFloat ModelVM ModelImage ModelText ModelNames ModelParse ModelSchema ModelDiag SpecText LemMono LemDiag.
Local Open Scope nat_scope.

(** Two commands that do the same *)
Definition same {A} (m1 m2 : par A) : Prop := forall p, m1 p = m2 p.
Lemma sm_refl {A} (m : par A) : same m m.
Proof. intros p. reflexivity. Qed.
Lemma sm_bind {A B} (m1 m2 : par A) (k1 k2 : A -> par B) : same m1 m2 -> (forall a, same (k1 a) (k2 a)) -> same (pbind m1 k1) (pbind m2 k2).
Proof. intros M K p. unfold pbind. rewrite <- M. destruct (m1 p); auto. apply K. Qed.
Lemma sm_when b m1 m2 : same m1 m2 -> same (when b m1) (when b m2).
Proof. intros M. destruct b; [exact M|apply sm_refl]. Qed.
Ltac sm1 := lazymatch goal with
  | |- same ?a ?a => apply sm_refl
  | |- same (pbind _ _) (pbind _ _) => apply sm_bind; [|intro]
  | |- same (when _ _) (when _ _) => apply sm_when
  | |- same (match ?x with _ => _ end) _ => destruct x
  | |- same (let _ := _ in _) _ => cbv zeta
  | |- same _ _ => first [match goal with H : _ |- _ => simple apply H end | apply sm_refl]
  end.
Ltac sm := repeat sm1.

Section Other.
Variables (E : env) (R : list N -> option (list N)).
Let F : env := {| e_strtod := e_strtod E; e_read := R; e_canon := e_canon E |}.
Lemma prec_same f : (forall n, same (parse_precedence E f n) (parse_precedence F f n)) /\ (forall n t, same (infix_loop E f n t) (infix_loop F f n t)).
Proof.
  induction f as [|f (P & I)]; (split; intros); try apply sm_refl.
  - cbn [parse_precedence]. sm.
  - cbn [infix_loop]. sm.
Qed.
Lemma expr_same f : same (parse_expression E f) (parse_expression F f).
Proof. apply prec_same. Qed.
Lemma poly_same f : forall l, same (poly_loop E f l) (poly_loop F f l).
Proof. induction f as [|f IH]; intros l; [apply sm_refl|]. cbn [poly_loop]. sm. Qed.
Lemma spline_same f : forall l, same (spline_loop E f l) (spline_loop F f l).
Proof. induction f as [|f IH]; intros l; [apply sm_refl|]. cbn [spline_loop]. sm. Qed.
Lemma args_same f t d : same (deco_args E f t d) (deco_args F f t d).
Proof. pose proof poly_same. pose proof spline_same. pose proof expr_same. unfold deco_args. sm. Qed.
Lemma decorator_same f d : same (decorator E f d) (decorator F f d).
Proof. pose proof args_same. unfold decorator. sm. Qed.
Lemma decorators_same f : forall d, same (decorators E f d) (decorators F f d).
Proof. pose proof decorator_same. induction f as [|f IH]; intros d; [apply sm_refl|]. cbn [decorators]. sm. Qed.
Lemma range_same op a b : same (emit_range_check E op a b) (emit_range_check F op a b).
Proof. apply sm_refl. Qed.
Lemma field_same d : same (field_rest E d) (field_rest F d).
Proof. apply sm_refl. Qed.
Lemma stmt_same f : same (parse_field E f) (parse_field F f) /\ same (parse_if E f) (parse_if F f) /\ same (parse_block E f) (parse_block F f) /\
  same (block_loop E f) (block_loop F f) /\ forall l c j d, same (case_loop E f l c j d) (case_loop F f l c j d).
Proof.
  induction f as [|f (A & B & C & D & G)]; (split; [|split; [|split; [|split]]]; intros); try apply sm_refl.
  - pose proof decorators_same. pose proof field_same. cbn [parse_field]. sm.
  - pose proof expr_same. cbn [parse_if]. sm.
  - cbn [parse_block]. sm.
  - cbn [block_loop]. sm.
  - cbn [case_loop]. sm.
Qed.
Lemma struct_same f : same (parse_struct E f) (parse_struct F f).
Proof. destruct (stmt_same f) as (_ & _ & H & _). unfold parse_struct. sm. Qed.
Lemma packet_same f : same (parse_packet E f) (parse_packet F f).
Proof. destruct (stmt_same f) as (_ & _ & H & _). unfold parse_packet. sm. Qed.

Variable x : list N.
Hypothesis RX : forall q, q <> x -> R q = e_read E q.
Hypothesis CC : forall p, cstr (e_canon E p) = e_canon E p.
(** The same, unless the file [x] gets opened *)
Definition near {A} (m1 m2 : par A) : Prop := forall q a q', m1 q = POk a q' ->
  incl (p_imports q) (p_imports q') /\ (~ In x (map cstr (p_imports q')) -> m2 q = POk a q').
Lemma ne_frame {A} (m1 m2 : par A) : frame m1 -> same m1 m2 -> near m1 m2.
Proof.
  intros H S q a q' X. specialize (H q []). rewrite X in H. destruct H as (I & _). split; [rewrite I; apply incl_refl|]. intros _. now rewrite <- S.
Qed.
Lemma ne_bind {A B} (m1 m2 : par A) (k1 k2 : A -> par B) : near m1 m2 -> (forall a, near (k1 a) (k2 a)) -> near (pbind m1 k1) (pbind m2 k2).
Proof.
  intros M K q b q' X. unfold pbind in X |- *. destruct (m1 q) as [a r| |] eqn:EM; try discriminate.
  destruct (M _ _ _ EM) as (I & G). destruct (K _ _ _ _ X) as (J & H). split; [eapply incl_tran; eauto|].
  intros NI. rewrite G; [now apply H|]. intro Y. apply NI. apply in_map_iff in Y as (y & Y1 & Y2). apply in_map_iff. exists y. auto.
Qed.
Lemma ne_when b m1 m2 : near m1 m2 -> near (when b m1) (when b m2).
Proof. destruct b; [auto|intros _; apply ne_frame; [apply fr_ret|apply sm_refl]]. Qed.
Ltac ne1 := lazymatch goal with
  | |- near (pbind _ _) (pbind _ _) => apply ne_bind; [|intro]
  | |- near (when _ _) (when _ _) => apply ne_when
  | |- near (match ?x with _ => _ end) _ => destruct x
  | |- near _ _ => first [match goal with H : near _ _ |- _ => exact H end | apply ne_frame; [solve [fr]|solve [sm]]]
  end.
Lemma ne_top f : near (top_level E f) (top_level F f) /\ near (top_decorators E f) (top_decorators F f) /\ near (parse_import E f) (parse_import F f).
Proof.
  induction f as [|f (A & B & C)]; (split; [|split]); try (apply ne_frame; [apply fr_fuel|apply sm_refl]).
  - pose proof (struct_frame E). pose proof enum_frame. pose proof (packet_frame E). pose proof struct_same. pose proof packet_same.
    cbn [top_level]. repeat ne1.
  - pose proof skip_frame. pose proof u32_frame. cbn [top_decorators]. repeat ne1.
  - cbn [parse_import]. do 4 (apply ne_bind; [ne1|intro]). destruct (256 <=? _)%N; [apply ne_frame; [apply fr_error|apply sm_refl]|].
    intros q b q' X. unfold pbind at 1 in X. unfold get at 1 in X. unfold pbind at 1. unfold get at 1.
    change (e_canon F) with (e_canon E). set (full := e_canon E _) in X. change (e_canon E _) with full. assert (CF : cstr full = full) by apply CC. clearbody full.
    destruct (existsb (same_text full) (p_imports q)) eqn:EX.
    + injection X as <- <-. split; [apply incl_refl|]. reflexivity.
    + unfold pbind at 1, upd_p at 1 in X. unfold pbind at 1, upd_p at 1.
      match type of X with ?m ?s = _ => set (rest := m) in X; set (q1 := s) in X end. change (set_import _ _ _ q) with q1.
      match goal with |- _ /\ (_ -> ?m q1 = _) => set (rest2 := m) end.
      assert (J : incl (p_imports q) (p_imports q1)) by apply strtab_incl.
      assert (Y : In full (map cstr (p_imports q1))) by (apply strtab_in; exact CF).
      assert (SELF : near rest rest /\ full = x \/ near rest rest2).
      { subst rest rest2. cbv beta. destruct (list_eq_dec N.eq_dec full x) as [EQ|NE].
        - left. split; [|exact EQ]. destruct (e_read E full) as [src|]; [|apply ne_frame; [apply fr_error|apply sm_refl]].
          destruct (lex src) as [toks|]; [|apply ne_frame; [apply fr_fuel|apply sm_refl]].
          apply ne_bind; [apply ne_frame; [apply fr_upd; reflexivity|apply sm_refl]|intro]. apply ne_bind; [apply ne_frame; [apply fr_advance|apply sm_refl]|intro].
          apply ne_bind; [|intro; apply ne_frame; [apply fr_upd; reflexivity|apply sm_refl]].
          intros r c r' X'. destruct (A _ _ _ X') as (I & _). split; auto.
        - right. change (e_read F full) with (R full). rewrite (RX full NE).
          destruct (e_read E full) as [src|]; [|apply ne_frame; [apply fr_error|apply sm_refl]].
          destruct (lex src) as [toks|]; [|apply ne_frame; [apply fr_fuel|apply sm_refl]].
          apply ne_bind; [apply ne_frame; [apply fr_upd; reflexivity|apply sm_refl]|intro]. apply ne_bind; [apply ne_frame; [apply fr_advance|apply sm_refl]|intro].
          apply ne_bind; [exact A|intro]. apply ne_frame; [apply fr_upd; reflexivity|apply sm_refl]. }
      destruct SELF as [(K & FX)|K]; destruct (K _ _ _ X) as (I & G); (split; [eapply incl_tran; eauto|]).
      * intros NI. exfalso. apply NI. rewrite <- FX. apply in_map_iff in Y as (y & Y1 & Y2). apply in_map_iff. exists y. auto.
      * exact G.
Qed.
Lemma analyse_near f path src a q : analyse E f path src = POk a q -> ~ In x (map cstr (p_imports q)) -> analyse F f path src = POk a q.
Proof.
  unfold analyse. destruct (lex src) as [ts|]; [|discriminate]. intros X NI.
  assert (G : near (advance ;; top_level E f) (advance ;; top_level F f)) by (apply ne_bind; [apply ne_frame; [apply fr_advance|apply sm_refl]|intro; apply ne_top]).
  now apply (proj2 (G _ _ _ X)).
Qed.
End Other.
