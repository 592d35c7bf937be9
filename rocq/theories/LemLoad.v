(** Everything the compiler puts into an image: names are qualified identifiers, all different; code is bytes. *)
From Coq Require Import Strings.String Lia ZifyBool ZifyN ZifyNat.
From Verif Require Import Base SpecBytes ModelFloat SpecVM ModelVM ModelImage ModelText ModelNames ModelParse ModelSchema LemBase LemStr LemErr LemGrammar SpecImage LemImage SpecLoad.
Ltac Zify.zify_post_hook ::= Z.div_mod_to_equations.

(** ** Bytes *)
Lemma wf_le2 v : wf_bytes (le2 v). Proof. unfold le2. repeat constructor; cbv beta; lia. Qed.
Lemma wf_le4 v : wf_bytes (le4 v). Proof. unfold le4. repeat constructor; cbv beta; lia. Qed.
Lemma wf_le8 v : wf_bytes (le8 v). Proof. apply Forall_app. split; apply wf_le4. Qed.
Lemma wf_of op v : wf_bytes (le_of op v).
Proof.
  unfold le_of. repeat match goal with |- wf_bytes (match ?x with _ => _ end) => destruct x end;
    first [apply wf_le2 | apply wf_le4 | apply wf_le8 | constructor; [cbv beta; lia|constructor] | constructor].
Qed.
Lemma wf_flat {A} (f : A -> list N) l : (forall x, wf_bytes (f x)) -> wf_bytes (flat_map f l).
Proof. intros F. induction l as [|x l IH]; [constructor|]. cbn. apply Forall_app. split; [apply F|exact IH]. Qed.

(** ** Names *)
Lemma identifier_qualified s : identifier s -> qualified s.
Proof. intros (c & r & -> & L & F). exists c, r. split; [reflexivity|]. split; [exact L|]. eapply Forall_impl; [|exact F]. cbv beta. tauto. Qed.
Lemma qualified_text s : qualified s -> text s.
Proof.
  intros (c & r & -> & L & F). constructor; [unfold letter in L; lia|]. eapply Forall_impl; [|exact F]. unfold letter, digit. cbv beta. intros x X. lia.
Qed.
Definition tail_char (x : N) : Prop := letter x \/ digit x \/ x = 46.
Lemma qualified_app a b : qualified a -> Forall tail_char b -> qualified (a ++ b).
Proof. intros (c & r & -> & L & F) B. exists c, (r ++ b). split; [reflexivity|]. split; [exact L|]. apply Forall_app. auto. Qed.
Lemma qualified_tail s : qualified s -> Forall tail_char s.
Proof. intros (c & r & -> & L & F). constructor; [left; exact L|exact F]. Qed.
Lemma identifier_cut n s : identifier s -> qualified (firstn (S n) s).
Proof.
  intros (c & r & -> & L & F). exists c, (firstn n r). split; [reflexivity|]. split; [exact L|]. apply Forall_forall. intros x X.
  assert (I : In x r) by (rewrite <- (firstn_skipn n r); apply in_or_app; auto). pose proof (proj1 (Forall_forall _ _) F x I) as Y. cbv beta in Y. tauto.
Qed.
Lemma alpha_letter c : is_alpha c = true -> letter c. Proof. unfold is_alpha, letter. lia. Qed.
Lemma alnum_char c : is_alnum c = true -> letter c \/ digit c. Proof. unfold is_alnum, is_alpha, is_digit, letter, digit. lia. Qed.
Lemma span_all p l a b : span p l = (a, b) -> Forall (fun x => p x = true) a /\ l = a ++ b.
Proof.
  revert a b. induction l as [|c r IH]; intros a b H; cbn in H; [injection H as <- <-; auto|]. destruct (p c) eqn:P; [|injection H as <- <-; auto].
  destruct (span p r) as (x & y). injection H as <- <-. destruct (IH _ _ eq_refl) as (F & ->). auto.
Qed.

(** ** Tokens *)
Definition tok_ok (t : token) : Prop := tk t = TIdentifier -> identifier (ttext t).
Lemma punct_not c n k m : punct c n = Some (k, m) -> k <> TIdentifier.
Proof.
  unfold punct. intros H. repeat match type of H with match ?x with _ => _ end = _ => destruct x; try discriminate H end;
    try (injection H as <- _; discriminate);
    repeat match type of H with Some (if ?b then _ else _) = _ => destruct b | Some (if ?b then _ else if ?d then _ else _) = _ => destruct b end; injection H as <- _; try discriminate;
    repeat match goal with |- context [if ?b then _ else _] => destruct b end; discriminate.
Qed.
Lemma scan_ok c r pos line : tok_ok (fst (scan c r pos line)).
Proof.
  unfold scan, tok_ok. destruct (c =? 34); [destruct (span _ r); discriminate|].
  destruct (punct c (peek 0 r)) as [(k & n)|] eqn:P; [cbn; intros X; now apply punct_not in P|].
  destruct (is_alpha c) eqn:A.
  - cbn [fst tk ttext]. intros _. destruct (span is_alnum r) as (a & b) eqn:SP. cbn [fst firstn]. apply span_all in SP as (F & ->).
    rewrite firstn_app, firstn_all, Nat.sub_diag. cbn [firstn]. rewrite app_nil_r. exists c, a. split; [reflexivity|]. split; [now apply alpha_letter|].
    eapply Forall_impl; [|exact F]. intros x X. now apply alnum_char.
  - destruct (_ || _); discriminate.
Qed.
Lemma next_ok f : forall l pos line t l' p' n', lexer_next f l pos line = Some (t, l', p', n') -> tok_ok t.
Proof.
  induction f as [|f IH]; intros l pos line t l' p' n' H; [discriminate|]. cbn [lexer_next] in H. destruct l as [|c r]; [injection H as <- _ _ _; discriminate|].
  destruct (_ || _); [eauto|]. destruct (_ =? 10); [eauto|]. destruct (_ && _ && _) in H; [destruct (span _ _); injection H as <- _ _ _; discriminate|].
  destruct (_ && _) in H; [destruct (span _ _); eauto|]. destruct (_ && _) in H; [destruct (skip_block _ _ _) as ((b & x) & y); eauto|].
  pose proof (scan_ok c r pos line) as K. destruct (scan c r pos line) as (t0 & n). injection H as <- _ _ _. exact K.
Qed.
Lemma lex_ok f : forall l pos line ts, lex_from f l pos line = Some ts -> Forall tok_ok ts.
Proof.
  induction f as [|f IH]; intros l pos line ts X; [discriminate|]. cbn [lex_from] in X.
  destruct (lexer_next _ _ _ _) as [(((t & l') & pos') & line')|] eqn:NX; [|discriminate]. apply next_ok in NX.
  destruct (kind_eq_dec (tk t) TEof) as [Q|Q]; [rewrite Q in X; injection X as <-; auto|].
  assert (Y : option_map (cons t) (lex_from f l' pos' line') = Some ts) by (destruct (tk t); try exact X; congruence).
  destruct (lex_from f l' pos' line') as [ts'|] eqn:Z; [|discriminate]. injection Y as <-. constructor; eauto.
Qed.

(** ** Name tables *)
Definition table_ok (strs : list (list N)) : Prop := Forall qualified strs /\ NoDup strs.
Lemma find_in t s : forall i, strtab_find t s i = None -> Forall text t -> ~ In s t.
Proof.
  induction t as [|x t IH]; intros i H F; [auto|]. cbn [strtab_find] in H. inversion F as [|? ? TX FT]; subst.
  rewrite cstr_text in H by auto. destruct (list_eq_dec N.eq_dec x s); [discriminate|]. intros [X|X]; [contradiction|]. exact (IH _ H FT X).
Qed.
Lemma table_add t s : table_ok t -> qualified s -> table_ok (fst (strtab_add t s)).
Proof.
  intros (F & ND) Q. unfold strtab_add. destruct (strtab_find t s 0) eqn:X; [split; auto|]. cbn [fst]. split.
  - apply Forall_app. auto.
  - apply find_in in X; [|eapply Forall_impl; [|exact F]; apply qualified_text].
    replace (t ++ [s]) with (t ++ s :: []) by reflexivity. apply NoDup_Add with (a := s) (l := t); [|auto].
    rewrite <- (app_nil_r t) at 1. apply Add_app.
Qed.

(** ** The compiler's state *)
Record inv (p : pst) : Prop := {
  i_toks : Forall tok_ok (p_toks p); i_cur : tok_ok (p_cur p); i_prev : tok_ok (p_prev p);
  i_out : wf_bytes (p_out p); i_strs : table_ok (p_strs p);
  i_structs : Forall (fun d => wf_bytes (snd d)) (p_structs p); i_enums : Forall (fun e => en_type e < 256) (p_enums p) }.
Definition kp {A} (m : par A) (Q : A -> Prop) : Prop := forall p a q, m p = POk a q -> p_err q = false -> inv p -> inv q /\ Q a.
Definition any {A} (a : A) : Prop := True.
Lemma kp_bind {A B} (m : par A) (k : A -> par B) Q R : kp m Q -> (forall a, sticky (k a)) -> (forall a, Q a -> kp (k a) R) -> kp (pbind m k) R.
Proof.
  intros M S K p b q E EQ IP. apply bind_inv in E as (a & r & MR & ER & KR); [|auto|exact S].
  destruct (M _ _ _ MR ER IP) as (IR & QA). exact (K a QA _ _ _ KR EQ IR).
Qed.
Lemma kp_weak {A} (m : par A) (Q R : A -> Prop) : kp m Q -> (forall a, Q a -> R a) -> kp m R.
Proof. intros M K p a q E EQ IP. destruct (M _ _ _ E EQ IP). auto. Qed.
Lemma kp_ret {A} (a : A) (Q : A -> Prop) : Q a -> kp (ret a) Q.
Proof. intros X p b q E EQ IP. injection E as <- <-. auto. Qed.
Lemma kp_get {A} (f : pst -> A) : kp (get f) any.
Proof. intros p b q E EQ IP. injection E as <- <-. split; [auto|exact Logic.I]. Qed.
Lemma kp_cur : kp (get p_cur) tok_ok.
Proof. intros p b q E EQ IP. injection E as <- <-. split; [auto|apply IP]. Qed.
Lemma kp_prev : kp (get p_prev) tok_ok.
Proof. intros p b q E EQ IP. injection E as <- <-. split; [auto|apply IP]. Qed.
Lemma kp_struct s : kp (get (fun p => find_struct (p_structs p) s)) (fun o => forall c, o = Some c -> wf_bytes c).
Proof.
  intros p b q E EQ IP. injection E as <- <-. split; [auto|]. intros c X. unfold find_struct in X. destruct (find _ _) as [d|] eqn:F; [|discriminate].
  injection X as <-. apply find_some in F as (F & _). exact (proj1 (Forall_forall _ _) (i_structs _ IP) d F).
Qed.
Lemma kp_enum s : kp (get (fun p => find_enum (p_enums p) s)) (fun o => forall e, o = Some e -> en_type e < 256).
Proof.
  intros p b q E EQ IP. injection E as <- <-. split; [auto|]. intros c X. apply find_some in X as (F & _). exact (proj1 (Forall_forall _ _) (i_enums _ IP) c F).
Qed.
Lemma kp_upd f (Q : unit -> Prop) : (forall p, inv p -> inv (f p)) -> Q tt -> kp (upd_p f) Q.
Proof. intros X Y p b q E EQ IP. injection E as <- <-. auto. Qed.
Lemma kp_undef {A} u (Q : A -> Prop) : kp (undef u) Q. Proof. intros p b q E. discriminate. Qed.
Lemma kp_fuel {A} (Q : A -> Prop) : kp no_fuel Q. Proof. intros p b q E. discriminate. Qed.
Lemma kp_result {A} (r : result A) : kp (of_result r) any.
Proof. destruct r; [now apply kp_ret|apply kp_undef]. Qed.
Lemma kp_error (Q : unit -> Prop) : kp error Q.
Proof. intros p b q E EQ. injection E as <- <-. discriminate. Qed.
Lemma kp_fail {A} (k : unit -> par A) Q : (forall a, sticky (k a)) -> kp (pbind error k) Q.
Proof. intros S. eapply kp_bind; [apply (kp_error (fun _ => False))|exact S|]. intros a []. Qed.
Lemma next_toks toks : forall b l o c, Forall tok_ok toks -> next_token toks b = (l, o, c) -> Forall tok_ok l /\ forall t, o = Some t -> tok_ok t.
Proof.
  induction toks as [|t toks IH]; intros b l o c F H; cbn in H; [injection H as <- <- _; split; [auto|discriminate]|].
  inversion F as [|? ? TT FT]; subst. destruct (tk t); try (injection H as <- <- _; split; [auto|intros u U; injection U as <-; auto]). eauto.
Qed.
Lemma kp_advance : kp advance any.
Proof.
  intros p b q E EQ [T C P O S D N]. unfold advance in E. destruct (next_token _ _) as ((l & o) & bad) eqn:NT. apply next_toks in NT as (FL & FO); [|auto].
  injection E as _ <-. split; [|exact Logic.I]. destruct bad; [discriminate EQ|]. constructor; cbn; auto. destruct o; auto.
Qed.
Lemma kp_at k : kp (at_kind k) any. Proof. apply kp_get. Qed.
Lemma kp_consume k : kp (consume k) any.
Proof. unfold consume. eapply kp_bind; [apply kp_at|intro; stk|]. intros [] _; [apply kp_advance|apply kp_error]. Qed.
Lemma kp_emit l : wf_bytes l -> kp (emit l) any.
Proof. intros W. apply kp_upd; [|exact Logic.I]. intros p [T C P O S D N]. constructor; cbn; auto. apply Forall_app. auto. Qed.
Lemma wf_skip n l : wf_bytes l -> wf_bytes (skipn n l).
Proof. intros W. apply Forall_forall. intros x X. apply (proj1 (Forall_forall _ _) W). rewrite <- (firstn_skipn n l). apply in_or_app. auto. Qed.
Lemma wf_first n l : wf_bytes l -> wf_bytes (firstn n l).
Proof. intros W. apply Forall_forall. intros x X. apply (proj1 (Forall_forall _ _) W). rewrite <- (firstn_skipn n l). apply in_or_app. auto. Qed.
Lemma kp_write o l : wf_bytes l -> kp (write_at o l) any.
Proof.
  intros W. apply kp_upd; [|exact Logic.I]. intros p [T C P O S D N]. destruct (_ <? _); constructor; cbn; auto.
  apply Forall_app. split; [now apply wf_first|]. apply Forall_app. split; [auto|now apply wf_skip].
Qed.
Lemma kp_name s : qualified s -> kp (add_name s) any.
Proof.
  intros Q p a q E EQ [T C P O S D N]. unfold add_name in E. pose proof (table_add _ _ S Q) as X. destruct (strtab_add _ _) as (t & i). injection E as <- <-.
  split; [constructor; cbn; auto|exact Logic.I].
Qed.
Lemma kp_when b m : kp m any -> kp (when b m) any.
Proof. destruct b; [auto|]. intros _. now apply kp_ret. Qed.
Lemma kp_whene b : kp (when b error) (fun _ => b = false).
Proof. destruct b; [apply kp_error|]. now apply kp_ret. Qed.
Lemma kp_number s : kp (number_i64 s) any. Proof. apply kp_result. Qed.
(** a name taken from the text *)
Lemma kp_ident {A} (k : token -> par A) R : (forall t, sticky (k t)) -> (forall t, identifier (ttext t) -> kp (k t) R) ->
  kp (let% t := get p_cur in consume TIdentifier ;; k t) R.
Proof.
  intros S K p b q E EQ IP. unfold pbind at 1, get in E. cbn in E. apply bind_inv in E as (a & r & MR & ER & KR); [|auto|intro; apply S].
  destruct (kp_consume TIdentifier _ _ _ MR ER IP) as (IR & _). apply (K (p_cur p)) in KR; auto.
  apply IP. unfold consume, at_kind, pbind, get in MR. destruct (is_kind TIdentifier (p_cur p)) eqn:X; [now apply is_kind_iff|]. injection MR as _ <-. discriminate ER.
Qed.
Lemma kp_if {A} (b : bool) (m1 m2 : par A) Q : kp m1 Q -> kp m2 Q -> kp (if b then m1 else m2) Q. Proof. destruct b; auto. Qed.

Ltac wfb := repeat first [assumption | apply wf_le2 | apply wf_le4 | apply wf_le8 | apply wf_of | apply Forall_nil | (apply Forall_app; split) | apply Forall_cons; [cbv beta|] |
  progress cbn [app] | lia].
Ltac kp1 :=
  match goal with
  | |- kp (pbind (get p_cur) (fun t => pbind (consume TIdentifier) _)) _ => apply kp_ident; [intro; stk|intros ? ?]
  | |- kp (pbind error _) _ => apply kp_fail; intro; stk
  | |- kp (pbind _ _) _ => eapply kp_bind; [solve [kp1]|intro; stk|intros ? ?]
  | |- kp (pbind _ _) _ => eapply kp_bind; [|intro; stk|intros ? ?]
  | |- kp (ret _) _ => first [apply (kp_ret _ any); exact Logic.I | apply kp_ret; exact Logic.I | apply kp_ret; assumption]
  | |- kp (get p_cur) _ => apply kp_cur
  | |- kp (get p_prev) _ => apply kp_prev
  | |- kp (get (fun p => find_struct (p_structs p) _)) _ => apply kp_struct
  | |- kp (get (fun p => find_enum (p_enums p) _)) _ => apply kp_enum
  | |- kp (get _) _ => apply kp_get
  | |- kp here _ => apply kp_get
  | |- kp (undef _) _ => apply kp_undef
  | |- kp no_fuel _ => apply kp_fuel
  | |- kp (of_result _) _ => apply kp_result
  | |- kp error _ => apply kp_error
  | |- kp advance _ => apply kp_advance
  | |- kp (at_kind _) _ => apply kp_at
  | |- kp (consume _) _ => apply kp_consume
  | |- kp (emit _) _ => apply kp_emit; solve [wfb]
  | |- kp (write_at _ _) _ => apply kp_write; solve [wfb]
  | |- kp (add_name _) _ => apply kp_name; solve [eauto using identifier_qualified]
  | |- kp (when _ error) _ => apply kp_whene
  | |- kp (when _ _) _ => apply kp_when
  | |- kp (number_i64 _) _ => apply kp_number
  | |- kp (match ?x with _ => _ end) _ => destruct x eqn:?
  | H : context [@kp] |- _ => apply H; auto
  end.
Ltac kps := repeat kp1.

Lemma kp_path f : forall s, qualified s -> kp (path_loop f s) (fun o => forall n, o = Some n -> qualified n).
Proof.
  induction f as [|f IH]; intros s Q; cbn [path_loop]; [apply kp_fuel|].
  eapply kp_bind; [apply kp_at|intro; stk|]. intros [] _; [|apply kp_ret; intros n X; injection X as <-; auto].
  eapply kp_bind; [apply kp_advance|intro; stk|]. intros _ _. apply kp_ident; [intro; stk|]. intros t T.
  apply kp_if; [apply kp_fail; intro; stk|]. apply IH. apply qualified_app; [auto|].
  constructor; [right; right; reflexivity|]. apply qualified_tail. now apply identifier_qualified.
Qed.
Lemma kp_load f s : qualified s -> kp (load_name f s) any.
Proof.
  intros Q. unfold load_name. pose proof (kp_path f s Q) as P. eapply kp_bind; [apply kp_at|intro; stk|]. intros [] _; [|kps].
  apply kp_if; [kps|]. eapply kp_bind; [exact P|intro; stk|]. intros [n|] N; [specialize (N _ eq_refl)|]; kps.
Qed.
Lemma wf_unary k t : wf_bytes (fst (unary_code k t)).
Proof. destruct k; cbn; try constructor; try lia; try constructor. destruct (is_float t); repeat constructor. Qed.
Lemma wf_binary k l r : wf_bytes (fst (binary_code k l r)).
Proof. unfold binary_code. cbv zeta. destruct l, r, k; cbn; repeat constructor. Qed.
Lemma wf_function t fn x : function1 t = Some fn -> wf_bytes (fst (fn x)).
Proof.
  unfold function1. cbv zeta. intros H. repeat match type of H with (if ?b then _ else _) = _ => destruct b; [injection H as <-; destruct x; repeat constructor|] end. discriminate.
Qed.
Lemma kp_ok {A} (r : result A) : kp (of_result r) (fun a => r = Ok a).
Proof. destruct r; [now apply kp_ret|apply kp_undef]. Qed.
Lemma rule_primary k n : rule k = Ok (Some RPrimary, n) -> In k [TNumber; TTrue; TFalse; TSelf; TIdentifier].
Proof. destruct k; cbn; intros H; try discriminate H; tauto. Qed.
Lemma kp_prec E f : (forall lv, kp (parse_precedence E f lv) any) /\ (forall lv t, kp (infix_loop E f lv t) any).
Proof.
  induction f as [|f [P L]]; (split; [intros lv|intros lv t]); cbn [parse_precedence infix_loop]; try apply kp_fuel.
  - kp1. eapply kp_bind; [apply kp_prev|intro; stk|]. intros t T. eapply kp_bind; [apply kp_ok|intro; stk|]. intros (pr & k) RU. cbn [fst]. destruct pr as [[]|]; [kps| | |kps].
    + kp1. kp1. eapply kp_bind; [apply P|intro; stk|]. intros ty _. pose proof (wf_unary a0 ty) as W. destruct (unary_code a0 ty). cbn [fst] in W. kps.
    + eapply kp_bind; [instantiate (1 := any)|intro; stk|intros ? ?; apply L]. apply rule_primary in RU.
      destruct (tk t) eqn:K; try (exfalso; cbn in RU; intuition discriminate); try solve [kps].
      destruct (function1 t) as [fn|] eqn:FN.
      { kp1. eapply kp_bind; [apply P|intro; stk|]. intros x _. kp1. pose proof (wf_function _ _ x FN) as W. destruct (fn x). cbn [fst] in W. kps. }
      apply kp_if; [kps|]. apply kp_load. apply identifier_qualified. auto.
  - kp1. kp1. apply kp_if; [|kps]. kp1. eapply kp_bind; [apply P|intro; stk|]. intros x _. pose proof (wf_binary a t x) as W. destruct (binary_code a t x). cbn [fst] in W. kps.
Qed.
Lemma kp_expression E f : kp (parse_expression E f) any. Proof. apply kp_prec. Qed.

(** ** Fields *)
Lemma kp_take_number : kp take_number any. Proof. unfold take_number. kps. Qed.
Lemma kp_take_u32 : kp take_u32 any. Proof. pose proof kp_take_number. unfold take_u32. kps. Qed.
Lemma kp_take_i64 : kp take_i64 any. Proof. pose proof kp_take_number. unfold take_i64. kps. Qed.
Lemma kp_take_double E : kp (take_double E) any. Proof. pose proof kp_take_number. unfold take_double. kps. Qed.
Lemma kp_range E op mn mx : op < 256 -> kp (emit_range_check E op mn mx) any.
Proof.
  intros B. unfold emit_range_check. cbv zeta beta. repeat match goal with |- kp (match ?x with _ => _ end) _ => destruct x end; kps.
Qed.
Lemma kp_poly E f : forall cs, lenN cs <= 16 -> kp (poly_loop E f cs) (fun l => lenN l <= 16).
Proof.
  induction f as [|f IH]; intros cs L; cbn [poly_loop]; [apply kp_fuel|]. kp1.
  eapply kp_bind; [instantiate (1 := fun l => lenN l <= 16)|intro; stk|].
  - apply kp_if; [|kps]. kp1. destruct (N.ltb_spec (lenN cs) 16); [|kps]. apply kp_ret. rewrite lenN_app, lenN_cons. change (lenN (@nil N)) with 0. lia.
  - intros l LL. kps.
Qed.
Lemma kp_spline E f : forall cs, lenN cs <= 16 -> kp (spline_loop E f cs) (fun l => lenN l <= 16).
Proof.
  pose proof (kp_take_double E). induction f as [|f IH]; intros cs L; cbn [spline_loop]; [apply kp_fuel|]. kp1.
  eapply kp_bind; [instantiate (1 := fun l => lenN l <= 16)|intro; stk|].
  - apply kp_if; [|kps]. kp1. destruct (N.ltb_spec (lenN cs) 16); [|kps]. kp1. kp1. apply kp_ret. rewrite lenN_app, lenN_cons. change (lenN (@nil (N * N))) with 0. lia.
  - intros l LL. kps.
Qed.
Lemma kp_skip f : kp (skip_to_paren f) any.
Proof. induction f; cbn [skip_to_paren]; kps. Qed.
Lemma inv_bits a b c d p : inv p -> inv (set_bits a b c d p). Proof. intros [T C P O S D N]. constructor; auto. Qed.
Lemma kp_pad k : kp (add_pad k) any.
Proof. apply kp_upd; [|exact Logic.I]. intros p IP. destruct (_ && _); auto using inv_bits. Qed.
Lemma kp_zero : kp zero_bits any.
Proof. apply kp_upd; [|exact Logic.I]. intros p IP. destruct (_ && _); auto using inv_bits. Qed.
Lemma kp_bits k : kp (add_bits k) any.
Proof.
  intros p a q E EQ IP. unfold add_bits in E. destruct (_ && _); [destruct (_ <? _)%Z; [discriminate|]|]; injection E as <- <-; split; auto using inv_bits; exact Logic.I.
Qed.
Definition deco_ok (d : deco) : Prop := lenN (d_poly d) <= 16 /\ lenN (d_spline d) <= 16.
Lemma kp_args E f t d : deco_ok d -> kp (deco_args E f t d) deco_ok.
Proof.
  intros D. pose proof kp_take_number. pose proof kp_take_u32. pose proof kp_take_i64. pose proof kp_take_double.
  pose proof (kp_poly E f (d_poly d) (proj1 D)). pose proof (kp_spline E f (d_spline d) (proj2 D)). pose proof kp_skip. pose proof kp_pad. pose proof kp_expression.
  unfold deco_args. apply kp_if.
  { eapply kp_bind; [apply kp_cur|intro; stk|]. intros c C. destruct (tk c) eqn:K; solve [kps]. }
  apply kp_if; [solve [kps]|]. apply kp_if; [solve [kps]|].
  apply kp_if; [kps|].
  apply kp_if; [eapply kp_bind; [solve [kps]|intro; stk|]; intros w _; apply kp_ret; repeat match goal with |- context [match ?x with _ => _ end] => destruct x end; exact D|].
  do 5 (apply kp_if; [solve [kps]|]).
  do 4 (apply kp_if; [solve [kps]|]).
  apply kp_if; [eapply kp_bind; [eassumption|intro; stk|]; intros l L; apply kp_ret; split; [exact L|apply D]|].
  apply kp_if; [eapply kp_bind; [eassumption|intro; stk|]; intros l L; apply kp_ret; split; [apply D|exact L]|].
  apply kp_if; kps.
Qed.
Lemma kp_decorator E f d : deco_ok d -> kp (decorator E f d) deco_ok.
Proof.
  intros D. pose proof kp_take_u32. pose proof (kp_args E f). pose proof kp_zero. unfold decorator. apply kp_ident; [intro; stk|]. intros t T.
  do 2 (apply kp_if; [solve [kps]|]). apply kp_if.
  { kp1. eapply kp_bind; [instantiate (1 := fun v => v < 256)|intro; stk|].
    - apply kp_if; [|apply kp_ret; lia]. do 4 kp1. apply kp_ret. lia.
    - intros v V. kps. }
  do 4 (apply kp_if; [solve [kps]|]). kps.
Qed.
Lemma kp_decorators E f : forall d, deco_ok d -> kp (decorators E f d) deco_ok.
Proof. pose proof (kp_decorator E). induction f; intros d D; cbn [decorators]; kps. Qed.
Lemma wf_trans d : deco_ok d -> wf_bytes (trans_code d).
Proof.
  intros (A & B). unfold trans_code. destruct (d_kind d); wfb; apply wf_flat; intros; wfb.
Qed.
Definition shape_ok (s : shape) : Prop := s_arr_op s < 256 /\ s_str_op s < 256.
Lemma prefix_lt t a b c op : prefix_ops t a b c = Some op -> a < 256 -> b < 256 -> c < 256 -> op < 256.
Proof. unfold prefix_ops. repeat match goal with |- (if ?b then _ else _) = _ -> _ => destruct b; [congruence|] end. discriminate. Qed.
Lemma kp_shape ty d : deco_ok d -> kp (field_shape ty d) (fun r => deco_ok (fst r) /\ shape_ok (snd r)).
Proof.
  intros D. pose proof kp_take_u32. unfold field_shape. kp1. eapply kp_bind; [instantiate (1 := fun r => deco_ok (fst r))|intro; stk|].
  { apply kp_if; [|apply kp_ret; exact D]. kp1. kp1. apply kp_if; [kp1; apply kp_ret; exact D|]. kp1. kp1. apply kp_ret. exact D. }
  intros (d1 & arr) D1. cbn [fst snd] in *. kp1. apply kp_if.
  - kp1. apply kp_ident; [intro; stk|]. intros t T. apply kp_if; [|apply kp_if; [|kps]].
    all: destruct (prefix_ops _ _ _ _) as [op|] eqn:PO; [|kps]; apply prefix_lt in PO; try lia; apply kp_ret; split; [exact D1|split; cbn; lia].
  - apply kp_if; [|apply kp_ret; split; [exact D1|split; cbn; lia]]. eapply kp_bind; [instantiate (1 := any); kps|intro; stk|]. intros u _. kp1.
    eapply kp_bind; [instantiate (1 := any); kps|intro; stk|]. intros m _. apply kp_ret. split; [exact D1|split; cbn; lia].
Qed.
Lemma wf_open d s k : shape_ok s -> wf_bytes (open_code d s k).
Proof.
  intros (A & B). unfold open_code. repeat match goal with |- context [match ?x with _ => _ end] => destruct x end; wfb.
Qed.
Lemma int_lt t op : int_name t = Some op -> op < 256.
Proof. unfold int_name. repeat match goal with |- (if ?b then _ else _) = _ -> _ => destruct b; [intros X; injection X as <-; lia|] end. discriminate. Qed.
Lemma type_lt t op : type_name t = Some op -> op < 256.
Proof.
  unfold type_name. destruct (int_name t) eqn:X; [intros Y; injection Y as <-; eapply int_lt; eauto|].
  repeat match goal with |- (if ?b then _ else _) = _ -> _ => destruct b; [intros Y; injection Y as <-; lia|] end. discriminate.
Qed.
Lemma kp_limits E op d : op < 256 -> kp (match d_range d with Some (lo, hi) => emit_range_check E op lo hi | None => ret tt end) any.
Proof. intros B. destruct (d_range d) as [(lo & hi)|]; [now apply kp_range|kps]. Qed.
Lemma kp_const E ty d key v : kp (const_field E ty d key v) any.
Proof.
  pose proof (kp_limits E). unfold const_field. eapply kp_bind; [instantiate (1 := fun op => op < 256)|intro; stk|].
  - destruct (int_name ty) eqn:X; [apply kp_ret; eapply int_lt; eauto|kps].
  - intros op B. kp1. eapply kp_bind; [|intro; stk|intros _ _; now apply kp_limits]. kps.
Qed.
Lemma append_ok f : forall src prefix strs out s o, append_with_prefix f src prefix strs out = Some (Ok (s, o)) ->
  qualified prefix -> wf_bytes src -> wf_bytes out -> table_ok strs -> table_ok s /\ wf_bytes o.
Proof.
  induction f as [|f IH]; intros src prefix strs out s o E Q WS WO T; cbn [append_with_prefix] in E; (destruct src as [|op src];
    [injection E as <- <-; auto|]); [discriminate|].
  destruct (opcode_size op) as [(sz & key)|]; [|injection E as <- <-; split; [auto|apply Forall_app; auto]].
  destruct (_ <? _); [injection E as <- <-; split; [auto|apply Forall_app; auto]|].
  destruct (negb key).
  - apply IH in E; auto; [now apply wf_skip|]. apply Forall_app. split; [auto|now apply wf_first].
  - destruct (prefixed _ _ _) as [nm|] eqn:PX; [|discriminate].
    assert (QN : qualified nm).
    { unfold prefixed in PX. destruct (_ <? _) in PX; [|discriminate]. injection PX as <-. apply qualified_app; [auto|]. constructor; [right; right; reflexivity|].
      set (k := N.to_nat (rd2 (op :: src) 1)). destruct (Nat.lt_ge_cases k (length strs)) as [L|L].
      - pose proof (proj1 (Forall_forall _ _) (proj1 T) _ (nth_In strs [] L)) as X. rewrite cstr_text by now apply qualified_text. now apply qualified_tail.
      - rewrite nth_overflow by auto. constructor. }
    pose proof (table_add _ _ T QN) as T2. destruct (strtab_add strs nm) as (strs' & id). cbn [fst] in T2. apply IH in E; auto; [now apply wf_skip|].
    apply Forall_app. split; [auto|]. inversion WS; subst. apply Forall_cons; [auto|]. apply Forall_app. split; [apply wf_le2|]. apply wf_skip. now apply wf_first.
Qed.
Lemma append_sticky c n : sticky (fun p => match append_with_prefix (S (length c)) c n (p_strs p) (p_out p) with
  | None => PFuel | Some (Ub u) => PUb u | Some (Ok (strs, out)) => POk tt (set_out out (set_strs strs p)) end).
Proof. intros p b q E X. destruct (append_with_prefix _ _ _ _ _) as [[[ss oo]|]|]; try discriminate. injection X as <- <-. exact E. Qed.
Local Hint Resolve append_sticky : stk.
Lemma kp_struct_field ty name d w key c : identifier (ttext name) -> wf_bytes c -> kp (struct_field ty name d w key c) any.
Proof.
  intros ID WC. unfold struct_field. kp1. apply kp_if; [kps|]. do 5 kp1. eapply kp_bind; [|intro; stk|intros ? ?; kps].
  intros p aa q X EQ [T C P O S D N]. destruct (append_with_prefix _ _ _ _ _) as [[(s & o)|]|] eqn:AP; try discriminate. injection X as _ <-.
  apply append_ok in AP as (A & B); auto; [|now apply (identifier_cut 254)]. split; [constructor; cbn; auto|instantiate (1 := any); exact Logic.I].
Qed.
Lemma kp_enum_field E d w key e : en_type e < 256 -> kp (enum_field E d w key e) any.
Proof.
  intros B. pose proof (kp_limits E _ d B). unfold enum_field. kp1. kp1. kp1. eapply kp_bind; [|intro; stk|intros; eassumption]. apply kp_emit.
  wfb. apply wf_flat. intros x. apply wf_of.
Qed.
Lemma kp_string d w key s : kp (string_field d w key s) any. Proof. unfold string_field. kps. Qed.
Lemma kp_basic E ty d w key : w < 256 -> kp (basic_field E ty d w key) any.
Proof.
  intros W. pose proof kp_bits. unfold basic_field. kp1. cbv zeta.
  set (w' := if a && (w =? 0) then match type_name ty with Some op => bit_width_of op | None => 0 end else w).
  assert (W' : w' < 256).
  { unfold w'. destruct (_ && _); [|auto]. destruct (type_name ty) as [op|]; [|lia]. unfold bit_width_of. repeat match goal with |- context [match ?x with _ => _ end] => destruct x end; lia. }
  clearbody w'. apply kp_if.
  - match goal with |- kp (match ?x with _ => _ end) _ => assert (XB : forall op, x = Some op -> op < 256); [|destruct x as [op|]; [specialize (XB _ eq_refl)|]] end.
    { intros op. repeat match goal with |- match ?x with _ => _ end = _ -> _ => destruct x end; intros X; try discriminate X; injection X as <-; lia. }
    all: kps.
  - apply kp_if; [kps|]. destruct (type_name ty) as [op|] eqn:TN; [|kps]. apply type_lt in TN.
    eapply kp_bind; [instantiate (1 := any)|intro; stk|intros; kps]. destruct (d_crc d) as [c|].
    + assert (FL : (if d_refin d then 1 else 0) + (if d_refout d then 2 else 0) < 256) by (destruct (d_refin d), (d_refout d); lia).
      repeat match goal with |- kp (match ?x with _ => _ end) _ => destruct x end; kps.
    + apply kp_if; [kps|]. kp1. now apply kp_limits.
Qed.
Lemma new_sticky s : sticky (fun p => let (fs, _) := strtab_add (p_fields p) s in let p' := set_struct (p_sname p) fs p in
  POk tt (if lenN fs =? lenN (p_fields p) then set_err p' else p')).
Proof. intros p a q E H. destruct (strtab_add _ _) as [fs i]. injection H as _ <-. destruct (_ =? _); [reflexivity|exact E]. Qed.
Local Hint Resolve new_sticky : stk.
Lemma kp_ident_if {A} (g : token -> bool) (k : token -> par A) R : (forall t, sticky (k t)) -> (forall t, identifier (ttext t) -> kp (k t) R) ->
  forall m, (forall t, kp (m t) R) -> kp (let% t := get p_cur in if g t then m t else consume TIdentifier ;; k t) R.
Proof.
  intros S K m M p b q E EQ IP. unfold pbind at 1, get in E. cbn in E. destruct (g (p_cur p)); [exact (M _ _ _ _ E EQ IP)|].
  apply (kp_ident k R S K p b q); auto.
Qed.
Lemma kp_rest E d : deco_ok d -> kp (field_rest E d) any.
Proof.
  intros D. pose proof (wf_trans d D) as WT. pose proof kp_string. unfold field_rest. kp1. kp1. apply kp_if; [kps|]. kp1. apply kp_ident; [intro; stk|]. intros ty TY.
  apply kp_ident_if; [intro; stk| |intros; kps]. intros nm NM. eapply kp_bind; [instantiate (1 := any)|intro; stk|].
  { intros p x q F EQ [T C P O S ST N]. destruct (strtab_add _ _) as (fs & i). injection F as _ <-. destruct (_ =? _); [discriminate EQ|]. split; [constructor; auto|exact Logic.I]. }
  intros _ _. eapply kp_bind; [apply kp_name; now apply identifier_qualified|intro; stk|]. intros key _. kp1. eapply kp_bind; [instantiate (1 := fun w => w < 256)|intro; stk|].
  { apply kp_if; [|apply kp_ret; lia]. kp1. kp1. kp1. apply kp_ret. lia. }
  intros w W. eapply kp_bind; [apply kp_shape; auto|intro; stk|]. intros (d1 & s) (D1 & S1). cbn [fst snd] in *.
  pose proof (wf_open d1 s key S1) as WO. kp1. kp1; [kps|]. kp1. eapply kp_bind; [instantiate (1 := any)|intro; stk|].
  - destruct (d_const d1) as [v|]; [pose proof (kp_const E ty d1 key v); kps|].
    eapply kp_bind; [apply kp_struct|intro; stk|]. intros sd SD. eapply kp_bind; [apply kp_enum|intro; stk|]. intros ed ED.
    destruct sd as [c|]; [apply kp_struct_field; auto|]. destruct ed as [e|]; [pose proof (kp_enum_field E d1 w key e (ED _ eq_refl)); kps|].
    apply kp_if; [kps|]. now apply kp_basic.
  - intros go _. kps.
Qed.
Lemma kp_docs f : kp (skip_docs f) any. Proof. induction f; cbn [skip_docs]; kps. Qed.
Lemma kp_case_value : kp case_value any. Proof. unfold case_value. kps. Qed.
Lemma kp_head : kp switch_head any. Proof. unfold switch_head. kps. Qed.
Lemma kp_patch js t : kp (patch_jumps js t) any. Proof. induction js as [|j js IH]; cbn [patch_jumps]; kps. Qed.
Lemma wf_table cs d : wf_bytes (table_code cs d).
Proof. unfold table_code. destruct (dense cs) as [(mn & mx)|]; wfb; apply wf_flat; intros; wfb. Qed.
Lemma kp_tail loc cs js d : kp (switch_tail loc cs js d) any.
Proof. pose proof kp_patch. pose proof wf_table. unfold switch_tail. do 2 kp1. kp1; [kps|]. eapply kp_bind; [apply kp_emit, wf_table|intro; stk|]. intros _ _. kps. Qed.
Lemma kp_stmt E f : kp (parse_field E f) any /\ kp (parse_if E f) any /\ kp (parse_block E f) any /\ kp (block_loop E f) any /\
  forall loc cs js d, kp (case_loop E f loc cs js d) any.
Proof.
  induction f as [|f (PF & PI & PB & BL & CL)]; [split; [|split; [|split; [|split]]]; intros; apply kp_fuel|].
  pose proof kp_docs. pose proof (kp_decorators E f deco0 ltac:(split; cbn; lia)) as DC. pose proof (kp_rest E). pose proof kp_expression. pose proof kp_case_value. pose proof kp_head. pose proof kp_tail.
  split; [|split; [|split; [|split]]]; cbn [parse_field parse_if parse_block block_loop case_loop].
  - kps.
  - kps.
  - kps.
  - kps.
  - intros loc cs js d. kps.
Qed.
Lemma kp_block E f : kp (parse_block E f) any. Proof. apply kp_stmt. Qed.

(** ** Definitions, imports, files *)
Lemma kp_self : kp (get (fun p => p)) inv.
Proof. intros p a q E EQ IP. injection E as <- <-. auto. Qed.
Lemma kp_enum_loop f : forall names vals next, kp (enum_loop f names vals next) any.
Proof. pose proof kp_take_i64. induction f as [|f IH]; intros; cbn [enum_loop]; kps. Qed.
Lemma base_lt t op : enum_base t = Some op -> op < 256.
Proof. unfold enum_base. destruct (match_keyword t "byte"); [discriminate|]. apply int_lt. Qed.
Lemma kp_parse_enum f : kp (parse_enum f) any.
Proof.
  pose proof kp_enum_loop. unfold parse_enum. kp1. kp1. kp1. kp1. eapply kp_bind; [instantiate (1 := fun op => op < 256)|intro; stk|].
  - apply kp_if; [|apply kp_ret; lia]. kp1. kp1. destruct (enum_base t0) eqn:EB; [apply kp_ret; eapply base_lt; eauto|kps].
  - intros op B. kp1. kp1. kp1. apply kp_upd; [|exact Logic.I]. intros p [T C P O S D N]. constructor; cbn; auto. apply Forall_app. split; [auto|]. constructor; [exact B|constructor].
Qed.
Lemma kp_parse_struct E f : kp (parse_struct E f) any.
Proof.
  pose proof (kp_block E f). unfold parse_struct. kp1. kp1. kp1. eapply kp_bind; [apply kp_self|intro; stk|]. intros old [T0 C0 P0 O0 S0 D0 N0].
  eapply kp_bind; [apply (kp_upd _ any); [|exact Logic.I]|intro; stk|intros _ _].
  { intros p [T C P O S D N]. constructor; cbn; auto; [constructor|]. apply Forall_app. split; [auto|]. constructor; [constructor|constructor]. }
  eapply kp_bind; [apply kp_when; eapply kp_bind; [apply kp_emit; wfb|intro; stk|intros _ _; apply kp_upd; [|exact Logic.I]; intros p; apply inv_bits]|intro; stk|intros _ _].
  kp1. eapply kp_bind; [apply kp_self|intro; stk|]. intros pp [T1 C1 P1 O1 S1 D1 N1]. kp1; [kps|].
  apply kp_upd; [|exact Logic.I]. intros p [T C P O S D N]. constructor; cbn; auto. apply Forall_app. split; [auto|]. constructor; [exact O|constructor].
Qed.
Lemma inv_fields n l p : inv p -> inv (set_struct n l p). Proof. intros [T C P O S D N]. constructor; auto. Qed.
Lemma kp_parse_packet E f : kp (parse_packet E f) any.
Proof.
  pose proof (kp_block E f). assert (FF : kp (upd_p (fun p => set_struct (p_sname p) [] p)) any) by (apply kp_upd; [intros p; apply inv_fields|exact Logic.I]).
  unfold parse_packet. kp1. kp1. kp1. kp1. kp1. kp1. eapply kp_bind; [instantiate (1 := any)|intro; stk|].
  - apply kp_if; [|kps]. kp1. kp1. kp1. eapply kp_bind; [apply kp_struct|intro; stk|]. intros [c|] X; [apply kp_emit; auto|kps].
  - intros _ _. kps.
Qed.
Lemma inv_import a b c p : inv p -> inv (set_import a b c p). Proof. intros [T C P O S D N]. constructor; auto. Qed.
Lemma kp_top E f : kp (top_level E f) any /\ kp (top_decorators E f) any /\ kp (parse_import E f) any.
Proof.
  induction f as [|f (A & B & C)]; (split; [|split]); try apply kp_fuel.
  - pose proof (kp_parse_struct E f). pose proof (kp_parse_enum f). pose proof (kp_parse_packet E f).
    assert (forall n, kp (upd_p (set_packets n)) any) by (intros n; apply kp_upd; [intros p [T0 C0 P O S D N]; constructor; auto|exact Logic.I]).
    cbn [top_level]. kps.
  - pose proof kp_skip. pose proof kp_take_u32.
    assert (kp (upd_p (fun p => set_bits true (p_bitmode p) (p_bits p) (p_bits_valid p) p)) any) by (apply kp_upd; [intros p; apply inv_bits|exact Logic.I]).
    cbn [top_decorators]. kps.
  - cbn [parse_import]. kp1. kp1. kp1. kp1. apply kp_if; [kps|]. eapply kp_bind; [apply kp_self|intro; stk|]. intros old [T0 C0 P0 O0 S0 D0 N0]. apply kp_if; [kps|].
    eapply kp_bind; [apply (kp_upd _ any); [|exact Logic.I]; intros p; apply inv_import|intro; stk|]. intros _ _. destruct (e_read E _) as [src|]; [|kps].
    destruct (lex src) as [toks|] eqn:LX; [|kps]. apply lex_ok in LX.
    eapply kp_bind; [apply (kp_upd _ any); [|exact Logic.I]; intros p [T1 C1 P1 O1 S1 D1 N1]; constructor; cbn; auto|intro; stk|]. intros _ _. kp1. kp1.
    apply kp_upd; [|exact Logic.I]. intros p [T1 C1 P1 O1 S1 D1 N1]. constructor; cbn; auto.
Qed.
Lemma file_inv E f path src a q : parse_file E f path src = POk a q -> p_err q = false -> inv q.
Proof.
  unfold parse_file. destruct (lex src) as [toks|] eqn:LX; [|discriminate]. apply lex_ok in LX. intros H EQ.
  assert (K : kp (advance ;; top_level E f) any) by (eapply kp_bind; [apply kp_advance|intro; stk|intros _ _; apply kp_top]).
  apply (K _ _ _ H EQ). constructor; cbn; auto; try (intros X; discriminate X); try constructor; constructor.
Qed.

(** ** The optimiser *)
Lemma build_ok strs : forall used tab, Forall qualified strs -> table_ok tab -> table_ok (fst (build_map strs used tab)).
Proof.
  induction strs as [|s strs IH]; intros used tab F T; [exact T|]. destruct used as [|u used]; [exact T|]. inversion F as [|? ? Q FS]; subst. cbn [build_map]. destruct u.
  - rewrite cstr_text by now apply qualified_text. pose proof (table_add _ _ T Q) as T2. destruct (strtab_add tab s) as (t & i). cbn [fst] in T2.
    specialize (IH used t FS T2). destruct (build_map strs used t). exact IH.
  - specialize (IH used tab FS T). destruct (build_map strs used tab). exact IH.
Qed.
Lemma renumber_wf m bc o : wf_bytes bc -> wf_bytes (renumber m bc o).
Proof.
  intros W. unfold renumber. destruct (nth_error _ _); [|auto]. apply Forall_app. split; [now apply wf_first|]. apply Forall_app. split; [apply wf_le2|now apply wf_skip].
Qed.
Lemma remap_wf f m : forall bc o bc', remap f m bc o = Some bc' -> wf_bytes bc -> wf_bytes bc'.
Proof.
  induction f as [|f IH]; intros bc o bc' H W; [discriminate|]. cbn [remap] in H. destruct (_ <=? _); [injection H as <-; auto|]. destruct (_ && _) in H; [injection H as <-; auto|].
  eapply IH; [exact H|]. assert (W2 : wf_bytes (if keyed (rd bc o) then renumber m bc (o + 1) else bc)) by (destruct (keyed _); auto using renumber_wf).
  destruct (_ && _); auto using renumber_wf.
Qed.
Lemma renumber_len m bc o : o + 2 <= lenN bc -> lenN (renumber m bc o) = lenN bc.
Proof.
  intros L. unfold renumber. destruct (nth_error _ _); [|auto]. rewrite !lenN_app, lenN_firstn by lia. unfold le2. rewrite !lenN_cons. change (lenN (@nil N)) with 0. unfold lenN. rewrite skipn_length. unfold lenN in L. lia.
Qed.
Lemma remap_len f m : forall bc o bc', remap f m bc o = Some bc' -> lenN bc' = lenN bc.
Proof.
  induction f as [|f IH]; intros bc o bc' H; [discriminate|]. cbn [remap] in H. destruct (_ <=? _); [injection H as <-; auto|]. destruct (keyed (rd bc o)) eqn:K; cbn [andb] in H.
  - destruct (N.ltb_spec (lenN bc) (o + 1 + 2)); [injection H as <-; auto|]. apply IH in H. rewrite H.
    assert (L : lenN (renumber m bc (o + 1)) = lenN bc) by (apply renumber_len; lia).
    destruct ((rd bc o =? 0x3B) && _) eqn:C; [|auto]. rewrite renumber_len; [auto|]. lia.
  - apply IH in H. rewrite H. destruct ((rd bc o =? 0x3B) && _) eqn:C; [|auto]. apply renumber_len. lia.
Qed.
Lemma optimize_ok strs bc strs' bc' : optimize_strings strs bc = Some (strs', bc') -> table_ok strs -> wf_bytes bc ->
  table_ok strs' /\ wf_bytes bc' /\ lenN bc' = lenN bc.
Proof.
  unfold optimize_strings. intros H T W. destruct (_ =? 0); [injection H as <- <-; auto|]. destruct (mark _ _ _ _) as [used|]; [|discriminate].
  pose proof (build_ok strs used [] (proj1 T) ltac:(split; constructor)) as B. destruct (build_map strs used []) as (tab & m). destruct (remap _ _ _ _) as [bc1|] eqn:R; [|discriminate].
  injection H as <- <-. split; [exact B|]. split; [eapply remap_wf; eauto|eapply remap_len; eauto].
Qed.

Theorem compiled_image E f path im : compile_file E f path = CImage im -> exists names bc, im = image names bc /\ Forall qualified names /\ NoDup names /\ wf_bytes bc.
Proof.
  unfold compile_file. destruct (e_read E _) as [src|]; [|discriminate]. destruct (parse_file _ _ _ _) as [a p| |] eqn:PF; [|discriminate|discriminate].
  destruct (p_err p) eqn:ER; [discriminate|]. apply file_inv in PF as [T C P O S D N]; [|auto]. destruct (optimize_strings _ _) as [(strs & bc)|] eqn:OP; [|discriminate].
  intros H. injection H as <-. apply optimize_ok in OP as (A & B & _); auto. exists strs, bc. split; [auto|]. split; [apply A|]. split; [apply A|auto].
Qed.

(** ** What the loaders make of it *)
Lemma table_text s : Forall qualified s -> Forall text s.
Proof. intros F. eapply Forall_impl; [|exact F]. apply qualified_text. Qed.
Lemma image_wf names bc : Forall qualified names -> wf_bytes bc -> wf_bytes (image names bc).
Proof.
  intros F W. unfold image. cbv zeta. repeat (apply Forall_app; split); try apply wf_le2; try apply wf_le4; auto; try (repeat constructor; fail).
  induction F as [|s l Q F IH]; [constructor|]. cbn [flat_map]. apply Forall_app. split; [|exact IH]. apply qualified_text in Q. rewrite cstr_text by auto.
  apply Forall_app. split; [|repeat constructor]. eapply Forall_impl; [|exact Q]. cbv beta. intros x X. lia.
Qed.
Lemma names_flat names : Forall text names -> flat_map (fun s => cstr s ++ [0]) names = flat_map (fun s => s ++ [0]) names.
Proof. induction 1 as [|s l T F IH]; [reflexivity|]. cbn [flat_map]. now rewrite cstr_text, IH by auto. Qed.
Lemma image_parts names bc : Forall text names -> image names bc = sub (image names bc) 0 16 ++ flat_map (fun s => s ++ [0]) names ++ bc.
Proof. intros F. rewrite <- names_flat by auto. reflexivity. Qed.
Lemma table_many names : lenN names <= table_bytes names.
Proof. induction names as [|s l IH]; [cbn; lia|]. rewrite lenN_cons. cbn [table_bytes fold_right]. unfold table_bytes in IH. lia. Qed.
Lemma flat_bytes names : lenN (flat_map (fun s => s ++ [0]) names) = table_bytes names.
Proof. induction names as [|s l IH]; [reflexivity|]. cbn [flat_map]. rewrite !lenN_app, lenN_cons, IH. change (lenN (@nil N)) with 0. unfold table_bytes. cbn [fold_right]. lia. Qed.
Lemma image_size names bc : Forall text names -> lenN (image names bc) = 16 + table_bytes names + lenN bc.
Proof. intros F. rewrite image_parts by auto. rewrite !lenN_app, flat_bytes. change (lenN (sub (image names bc) 0 16)) with 16. lia. Qed.
Lemma every_image E fuel path im : compile_file E fuel path = CImage im ->
  exists names bc, im = sub im 0 16 ++ flat_map (fun s => s ++ [0]) names ++ bc /\
    Forall qualified names /\ NoDup names /\ wf_bytes im /\
    (lenN names <= 65535 -> lenN im < 2 ^ 32 -> exists pr, load_il im = Ok (Loaded pr) /\
       sub im (pr_bytecode pr) (pr_bytecode_len pr) = bc /\ pr_bytecode_len pr = lenN bc /\ pr_string_count pr = lenN names /\
       (forall i, i < lenN names -> get_key_id im pr (nth (N.to_nat i) names []) = Ok i /\
          exists p, get_key_name im pr i = Ok (Some p) /\ string_at im p (nth (N.to_nat i) names [])) /\
       (forall i, lenN names <= i -> get_key_name im pr i = Ok None) /\
       (forall s, text s -> ~ In s names -> get_key_id im pr s = Ok 0xFFFF) /\
       exists at_ ps, cli_load_il im = Ok (Some (at_, lenN bc, ps)) /\ sub im at_ (lenN bc) = bc /\ Forall2 (string_at im) ps names).
Proof.
  intros H. apply compiled_image in H as (names & bc & -> & Q & ND & W). pose proof (table_text _ Q) as T. exists names, bc.
  split; [now apply image_parts|]. split; [auto|]. split; [auto|]. split; [now apply image_wf|]. intros C L.
  assert (B : 16 + table_bytes names < 2 ^ 32) by (rewrite image_size in L by auto; lia). exists (prog names bc).
  split; [now apply load_image|]. split; [now apply prog_code|]. split; [reflexivity|]. split; [reflexivity|]. split; [|split; [|split]].
  - intros i I. split; [|now apply name_of]. rewrite id_of; auto; [now rewrite index_nth|]. apply (proj1 (Forall_forall _ _) T). apply nth_In. unfold lenN in I. lia.
  - intros i I. now apply name_out.
  - intros s TS X. rewrite id_of; auto. now rewrite index_none.
  - destruct (cli_load names bc T C B) as (ps & A & D). exists (16 + table_bytes names), ps. split; [exact A|]. split; [exact (prog_code names bc T C B)|exact D].
Qed.
Lemma small_image E fuel path im : compile_file E fuel path = CImage im -> lenN im < 2 ^ 16 ->
  exists pr, load_il im = Ok (Loaded pr) /\ (forall i, exists q, get_key_name im pr i = Ok q) /\ (forall s, exists q, get_key_id im pr s = Ok q).
Proof.
  intros H L. apply compiled_image in H as (names & bc & -> & Q & ND & W). pose proof (table_text _ Q) as T. pose proof (table_many names) as M.
  rewrite image_size in L by auto. assert (B : 16 + table_bytes names < 2 ^ 32) by lia. assert (C : lenN names <= 65535) by lia.
  exists (prog names bc). pose proof (load_image names bc T C B) as LD. split; [exact LD|]. now apply written_lookups.
Qed.
