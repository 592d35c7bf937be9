(** Parsing functions only append to the code they are given, and never take an error back. *)
From Coq Require Import Strings.String ZifyBool ZifyNat ZifyN.
From Verif Require Import Base SpecBytes ModelVM ModelImage ModelText ModelNames ModelParse ModelSchema LemBase.
Ltac Zify.zify_post_hook ::= Z.div_mod_to_equations.

(** [b] is no shorter than [a] and has the same first [n] elements *)
Definition keeps (n : N) (a b : list N) : Prop := lenN a <= lenN b /\ firstn (N.to_nat n) b = firstn (N.to_nat n) a.
Definition safe {A} (n : N) (m : par A) (Q : A -> Prop) : Prop := forall p a p', m p = POk a p' ->
  n <= lenN (p_out p) -> keeps n (p_out p) (p_out p') /\ (p_err p = true -> p_err p' = true) /\ Q a.
Definition any {A} (a : A) : Prop := True.

Lemma keeps_refl n a : n <= lenN a -> keeps n a a.
Proof. split; auto. lia. Qed.
Lemma keeps_trans n a b c : keeps n a b -> keeps n b c -> keeps n a c.
Proof. intros (A & B) (C & D). split; [lia|congruence]. Qed.
Lemma keeps_app n a b : n <= lenN a -> keeps n a (a ++ b).
Proof.
  intros L. split; [rewrite lenN_app; lia|]. rewrite firstn_app. unfold lenN in L.
  replace (N.to_nat n - length a)%nat with 0%nat by lia. cbn [firstn]. apply app_nil_r.
Qed.
Lemma keeps_patch n a off l : n <= off -> off + lenN l <= lenN a ->
  keeps n a (firstn (N.to_nat off) a ++ l ++ skipn (N.to_nat (off + lenN l)) a).
Proof.
  intros L M. split.
  - rewrite !lenN_app, lenN_firstn, lenN_skipn by lia. lia.
  - rewrite firstn_app, firstn_firstn, firstn_length. unfold lenN in M.
    replace (Nat.min (N.to_nat n) (N.to_nat off)) with (N.to_nat n) by lia.
    replace (N.to_nat n - Nat.min (N.to_nat off) (length a))%nat with 0%nat by lia. cbn [firstn]. apply app_nil_r.
Qed.

Lemma safe_bind {A B} n (m : par A) (k : A -> par B) Q R :
  safe n m Q -> (forall a, Q a -> safe n (k a) R) -> safe n (pbind m k) R.
Proof.
  intros M K p b p' E L. unfold pbind in E. destruct (m p) as [a p1| |] eqn:F; try discriminate.
  destruct (M _ _ _ F L) as (X & Y & Z). destruct (K a Z _ _ _ E (N.le_trans _ _ _ L (proj1 X))) as (X' & Y' & Z').
  split; [eapply keeps_trans; eauto|]. auto.
Qed.
Lemma safe_weak {A} n (m : par A) (Q R : A -> Prop) : safe n m Q -> (forall a, Q a -> R a) -> safe n m R.
Proof. intros M K p a p' E L. destruct (M _ _ _ E L) as (X & Y & Z). auto. Qed.
Lemma safe_ret {A} n (a : A) (Q : A -> Prop) : Q a -> safe n (ret a) Q.
Proof. intros X p b p' E L. injection E as <- <-. split; [now apply keeps_refl|auto]. Qed.
Lemma safe_get {A} n (f : pst -> A) : safe n (get f) any.
Proof. intros p b p' E L. injection E as <- <-. split; [now apply keeps_refl|]. split; [auto|exact I]. Qed.
Lemma safe_here n : safe n here (fun j => n <= j).
Proof. intros p b p' E L. injection E as <- <-. split; [now apply keeps_refl|auto]. Qed.
Lemma safe_upd n f (Q : unit -> Prop) : (forall p, p_out (f p) = p_out p /\ (p_err p = true -> p_err (f p) = true)) -> Q tt -> safe n (upd_p f) Q.
Proof. intros X Y p b p' E L. injection E as <- <-. destruct (X p) as [-> Z]. split; [now apply keeps_refl|auto]. Qed.
Lemma safe_undef {A} n u (Q : A -> Prop) : safe n (undef u) Q.
Proof. intros p b p' E. discriminate. Qed.
Lemma safe_fuel {A} n (Q : A -> Prop) : safe n no_fuel Q.
Proof. intros p b p' E. discriminate. Qed.
Lemma safe_of_result {A} n (r : result A) : safe n (of_result r) any.
Proof. destruct r; [now apply safe_ret|apply safe_undef]. Qed.
Lemma safe_error n : safe n error any.
Proof. apply safe_upd; [auto|exact I]. Qed.
Lemma safe_advance n : safe n advance any.
Proof.
  intros p b p' E L. unfold advance in E. destruct (next_token _ _) as ((toks & t) & bad). injection E as <- <-.
  destruct bad; cbn; (split; [now apply keeps_refl|]); split; auto; exact I.
Qed.
Lemma safe_at n k : safe n (at_kind k) any.
Proof. apply safe_get. Qed.
Lemma safe_consume n k : safe n (consume k) any.
Proof. unfold consume. eapply safe_bind; [apply safe_at|]. intros [] _; [apply safe_advance|apply safe_error]. Qed.
Lemma safe_emit n l : safe n (emit l) any.
Proof. intros p b p' E L. injection E as <- <-. cbn. split; [now apply keeps_app|]. split; [auto|exact I]. Qed.
Lemma safe_write n off l : n <= off -> safe n (write_at off l) any.
Proof.
  intros X p b p' E L. injection E as <- <-. destruct (N.ltb_spec (lenN (p_out p)) (off + lenN l)).
  - split; [now apply keeps_refl|]. split; [auto|exact I].
  - cbn. split; [now apply keeps_patch|]. split; [auto|exact I].
Qed.
Lemma safe_add n s : safe n (add_name s) any.
Proof. intros p b p' E L. unfold add_name in E. destruct (strtab_add _ _). injection E as <- <-. cbn. split; [now apply keeps_refl|]. split; [auto|exact I]. Qed.
Lemma safe_when n b m : safe n m any -> safe n (when b m) any.
Proof. intros. destruct b; auto. now apply safe_ret. Qed.
Lemma safe_number n s : safe n (number_i64 s) any.
Proof. apply safe_of_result. Qed.
Lemma safe_if {A} n (b : bool) (m1 m2 : par A) Q : safe n m1 Q -> safe n m2 Q -> safe n (if b then m1 else m2) Q.
Proof. destruct b; auto. Qed.

Ltac safe1 :=
  match goal with
  | |- safe _ (pbind _ _) _ => first [eapply safe_bind; [solve [safe1]|intros ? ?] | eapply safe_bind; [|intros ? ?]]
  | |- safe _ (ret _) _ => first [apply (safe_ret _ _ any); exact I | apply safe_ret; exact I]
  | |- safe _ (get _) _ => apply safe_get
  | |- safe _ here _ => apply safe_here
  | |- safe _ (undef _) _ => apply safe_undef
  | |- safe _ no_fuel _ => apply safe_fuel
  | |- safe _ (of_result _) _ => apply safe_of_result
  | |- safe _ error _ => apply safe_error
  | |- safe _ advance _ => apply safe_advance
  | |- safe _ (at_kind _) _ => apply safe_at
  | |- safe _ (consume _) _ => apply safe_consume
  | |- safe _ (emit _) _ => apply safe_emit
  | |- safe _ (write_at _ _) _ => apply safe_write; cbv beta in *; lia
  | |- safe _ (add_name _) _ => apply safe_add
  | |- safe _ (when _ _) _ => apply safe_when
  | |- safe _ (number_i64 _) _ => apply safe_number
  | |- safe _ (match ?x with _ => _ end) _ => destruct x
  | H : context [safe] |- _ => apply H
  end.
Ltac safes := repeat safe1.

Section Expr.
  Variable n : N.
  Lemma safe_path f : forall s, safe n (path_loop f s) any.
  Proof. induction f; intros s; cbn [path_loop]; safes. Qed.
  Lemma safe_load f s : safe n (load_name f s) any.
  Proof. unfold load_name. pose proof safe_path as P. safes. Qed.
  Lemma safe_prec E f : (forall lv, safe n (parse_precedence E f lv) any) /\ (forall lv t, safe n (infix_loop E f lv t) any).
  Proof.
    induction f as [|f [P L]]; (split; [intros lv|intros lv t]); cbn [parse_precedence infix_loop]; try apply safe_fuel.
    - eapply safe_bind; [apply safe_advance|]. intros _ _. eapply safe_bind; [apply safe_get|]. intros t _.
      eapply safe_bind; [apply safe_of_result|]. intros (pr & k) _. cbn [fst].
      pose proof safe_load as LD. safes.
    - safes.
  Qed.
  Lemma safe_expression E f : safe n (parse_expression E f) any.
  Proof. apply safe_prec. Qed.
End Expr.

Lemma append_keeps f : forall src prefix strs out s o, append_with_prefix f src prefix strs out = Some (Ok (s, o)) -> exists c, o = out ++ c.
Proof.
  induction f; intros src prefix strs out s o E; cbn [append_with_prefix] in E; (destruct src as [|op src];
    [injection E as <- <-; exists []; now rewrite app_nil_r|]); [discriminate|].
  destruct (opcode_size op) as [(sz & key)|]; [|injection E as <- <-; eauto].
  destruct (_ <? _); [injection E as <- <-; eauto|].
  destruct (negb key).
  - destruct (IHf _ _ _ _ _ _ E) as (c & ->). rewrite <- app_assoc. eauto.
  - destruct (prefixed _ _ _); [|discriminate]. destruct (strtab_add _ _). destruct (IHf _ _ _ _ _ _ E) as (c & ->).
    rewrite <- app_assoc. eauto.
Qed.

Section Field.
  Variable n : N.
  Lemma safe_take_number : safe n take_number any.
  Proof. unfold take_number. safes. Qed.
  Lemma safe_take_u32 : safe n take_u32 any.
  Proof. unfold take_u32. pose proof safe_take_number. safes. Qed.
  Lemma safe_take_i64 : safe n take_i64 any.
  Proof. unfold take_i64. pose proof safe_take_number. safes. Qed.
  Lemma safe_take_double E : safe n (take_double E) any.
  Proof. unfold take_double. pose proof safe_take_number. safes. Qed.
  Lemma safe_range E op mn mx : safe n (emit_range_check E op mn mx) any.
  Proof.
    unfold emit_range_check. cbv zeta beta. repeat match goal with |- safe _ (match ?x with _ => _ end) _ => destruct x end; safes.
  Qed.
  Lemma safe_poly E f : forall cs, safe n (poly_loop E f cs) any.
  Proof. induction f; intros cs; cbn [poly_loop]; safes. Qed.
  Lemma safe_spline E f : forall cs, safe n (spline_loop E f cs) any.
  Proof. pose proof safe_take_double. induction f; intros cs; cbn [spline_loop]; safes. Qed.
  Lemma safe_skip f : safe n (skip_to_paren f) any.
  Proof. induction f; cbn [skip_to_paren]; safes. Qed.
  Lemma safe_pad k : safe n (add_pad k) any.
  Proof. apply safe_upd; [|exact I]. intros p. destruct (_ && _); auto. Qed.
  Lemma safe_zero : safe n zero_bits any.
  Proof. apply safe_upd; [|exact I]. intros p. destruct (_ && _); auto. Qed.
  Lemma safe_bits k : safe n (add_bits k) any.
  Proof.
    intros p a p' E L. unfold add_bits in E. destruct (_ && _); [destruct (_ <? _)%Z; [discriminate|]|];
      injection E as <- <-; (split; [now apply keeps_refl|]); split; auto; exact I.
  Qed.
  Lemma safe_args E f t d : safe n (deco_args E f t d) any.
  Proof.
    pose proof safe_take_number. pose proof safe_take_u32. pose proof safe_take_i64. pose proof safe_take_double.
    pose proof safe_poly. pose proof safe_spline. pose proof safe_skip. pose proof safe_pad. pose proof safe_expression.
    unfold deco_args. repeat (apply safe_if; [solve [safes]|]). safes.
  Qed.
  Lemma safe_decorator E f d : safe n (decorator E f d) any.
  Proof.
    pose proof safe_take_u32. pose proof safe_args. pose proof safe_zero. unfold decorator.
    eapply safe_bind; [safes|]. intros t _. eapply safe_bind; [safes|]. intros _ _.
    repeat (apply safe_if; [solve [safes]|]). safes.
  Qed.
  Lemma safe_decorators E f : forall d, safe n (decorators E f d) any.
  Proof. pose proof safe_decorator. induction f; intros d; cbn [decorators]; safes. Qed.
  Lemma safe_shape ty d : safe n (field_shape ty d) any.
  Proof. pose proof safe_take_u32. unfold field_shape. safes. Qed.
  Lemma safe_const E ty d key v : safe n (const_field E ty d key v) any.
  Proof. pose proof safe_range. unfold const_field. safes. Qed.
  Lemma safe_struct ty name d w key c : safe n (struct_field ty name d w key c) any.
  Proof.
    unfold struct_field. eapply safe_bind; [safes|]. intros sn _. apply safe_if; [safes|]. repeat safe1.
    intros p aa p' E L. destruct (append_with_prefix _ _ _ _ _) as [[(s & o)|]|] eqn:X; try discriminate.
    injection E as <- <-. destruct (append_keeps _ _ _ _ _ _ _ X) as (d' & ->). cbn.
    split; [now apply keeps_app|]. split; [auto|]. instantiate (1 := any). exact I.
  Qed.
  Lemma safe_enum E d w key e : safe n (enum_field E d w key e) any.
  Proof. pose proof safe_range. unfold enum_field. safes. Qed.
  Lemma safe_string d w key s : safe n (string_field d w key s) any.
  Proof. unfold string_field. safes. Qed.
  Lemma safe_basic E ty d w key : safe n (basic_field E ty d w key) any.
  Proof.
    pose proof safe_range. pose proof safe_bits. unfold basic_field. eapply safe_bind; [safes|]. intros bm _. cbv zeta.
    apply safe_if; [destruct (match type_name ty with _ => _ end); safes|]. apply safe_if; [safes|]. safes.
  Qed.
  Lemma safe_rest E d : safe n (field_rest E d) any.
  Proof.
    pose proof safe_shape. pose proof safe_const. pose proof safe_struct. pose proof safe_enum. pose proof safe_string.
    pose proof safe_basic. unfold field_rest.
    eapply safe_bind; [safes|]. intros semi _. eapply safe_bind; [safes|]. intros close _. apply safe_if; [safes|].
    eapply safe_bind; [safes|]. intros _ _. eapply safe_bind; [safes|]. intros ty _. eapply safe_bind; [safes|]. intros _ _.
    eapply safe_bind; [safes|]. intros name _. apply safe_if; [safes|].
    eapply safe_bind; [safes|]. intros _ _. eapply safe_bind.
    - intros p a p' F L. destruct (strtab_add _ _) as (fs & x). injection F as <- <-.
      destruct (_ =? _); cbn; (split; [now apply keeps_refl|]); (split; [auto|]); try (instantiate (1 := any)); exact I.
    - intros _ _. safes.
  Qed.
  Lemma safe_docs f : safe n (skip_docs f) any.
  Proof. induction f; cbn [skip_docs]; safes. Qed.
  Lemma safe_case_value : safe n case_value any.
  Proof. unfold case_value. safes. Qed.
  Lemma safe_head : safe n switch_head (fun j => n <= j).
  Proof.
    unfold switch_head. do 6 (eapply safe_bind; [safes|intros ? _]). eapply safe_bind; [apply safe_here|]. intros j J.
    eapply safe_bind; [safes|]. intros _ _. now apply safe_ret.
  Qed.
  Lemma safe_patch js : forall t, Forall (fun j => n <= j) js -> safe n (patch_jumps js t) any.
  Proof.
    induction js as [|j js IH]; intros t F; cbn [patch_jumps]; [safes|]. inversion F; subst.
    eapply safe_bind; [apply safe_write; lia|]. intros _ _. now apply IH.
  Qed.
  Lemma safe_tail loc cs js d : n <= loc -> Forall (fun j => n <= j) js -> safe n (switch_tail loc cs js d) any.
  Proof.
    intros L F. unfold switch_tail. pose proof (safe_patch js). eapply safe_bind; [safes|]. intros _ _.
    eapply safe_bind; [safes|]. intros start _. eapply safe_bind; [apply safe_when, safe_write; lia|]. intros _ _.
    eapply safe_bind; [safes|]. intros _ _. eapply safe_bind; [now apply safe_patch|]. intros _ _. apply safe_write. lia.
  Qed.
  Lemma safe_stmt E f : safe n (parse_field E f) any /\ safe n (parse_if E f) any /\ safe n (parse_block E f) any /\
    safe n (block_loop E f) any /\
    forall loc cs js d, n <= loc -> Forall (fun j => n <= j) js -> safe n (case_loop E f loc cs js d) any.
  Proof.
    induction f as [|f (PF & PI & PB & BL & CL)]; [split; [|split; [|split; [|split]]]; intros; apply safe_fuel|].
    pose proof safe_docs. pose proof safe_decorators. pose proof safe_rest. pose proof safe_expression. pose proof safe_case_value.
    split; [|split; [|split; [|split]]]; cbn [parse_field parse_if parse_block block_loop case_loop].
    - eapply safe_bind; [safes|]. intros err _. apply safe_if; [safes|]. eapply safe_bind; [safes|]. intros _ _.
      eapply safe_bind; [safes|]. intros k _. destruct k; try solve [safes].
      eapply safe_bind; [safes|]. intros _ _. eapply safe_bind; [apply safe_head|]. intros loc L. now apply CL.
    - do 3 (eapply safe_bind; [safes|intros ? _]). eapply safe_bind; [apply safe_here|]. intros jf JF.
      do 2 (eapply safe_bind; [safes|intros ? _]). eapply safe_bind; [apply safe_here|]. intros je JE.
      safes.
    - safes.
    - safes.
    - intros loc cs js d L F.
      assert (B : safe n ((let% b := at_kind TLbrace in if b then parse_block E f else parse_field E f) ;;
        let% j := here in emit ([82] ++ le4 0) ;; ret j) (fun j => n <= j)).
      { eapply safe_bind; [safes|]. intros _ _. eapply safe_bind; [apply safe_here|]. intros j J.
        eapply safe_bind; [safes|]. intros _ _. now apply safe_ret. }
      eapply safe_bind; [safes|]. intros t _. eapply safe_bind; [safes|]. intros err _. apply safe_if; [now apply safe_tail|].
      destruct (tk t); try solve [eapply safe_bind; [safes|]; intros _ _; eapply safe_bind; [safes|]; intros _ _; now apply CL].
      + do 4 (eapply safe_bind; [safes|intros ? _]). eapply safe_bind; [apply safe_here|]. intros at_ _.
        eapply safe_bind; [apply B|]. intros j J. apply CL; auto. apply Forall_app. auto.
      + do 2 (eapply safe_bind; [safes|intros ? _]). eapply safe_bind; [apply safe_here|]. intros at_ _.
        eapply safe_bind; [apply B|]. intros j J. apply CL; auto. apply Forall_app. auto.
  Qed.
End Field.
