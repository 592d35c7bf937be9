(** An error, once reported, is never forgotten. *)
From Coq Require Import Strings.String Lia.
From Verif Require Import Base ModelFloat ModelVM ModelImage ModelText ModelNames ModelParse ModelSchema LemMono.
Local Open Scope nat_scope.

Definition sticky {A} (m : par A) : Prop := forall p a q, p_err p = true -> m p = POk a q -> p_err q = true.
Lemma st_ret {A} (a : A) : sticky (ret a).
Proof. intros p b q E X. injection X as <- <-. exact E. Qed.
Lemma st_get {A} (f : pst -> A) : sticky (get f).
Proof. intros p b q E X. injection X as <- <-. exact E. Qed.
Lemma st_upd f : (forall p, p_err p = true -> p_err (f p) = true) -> sticky (upd_p f).
Proof. intros F p b q E X. injection X as <- <-. now apply F. Qed.
Lemma st_undef {A} u : sticky (@undef A u).
Proof. intros p a q E X. discriminate. Qed.
Lemma st_fuel {A} : sticky (@no_fuel A).
Proof. intros p a q E X. discriminate. Qed.
Lemma st_result {A} (r : result A) : sticky (of_result r).
Proof. destruct r; [apply st_ret|apply st_undef]. Qed.
Lemma st_bind {A B} (m : par A) (k : A -> par B) : sticky m -> (forall a, sticky (k a)) -> sticky (pbind m k).
Proof. intros M K p a q E X. unfold pbind in X. destruct (m p) as [b r| |] eqn:EM; try discriminate. eapply K; [|exact X]. eapply M; eauto. Qed.
Lemma st_when b m : sticky m -> sticky (when b m).
Proof. destruct b; [auto|intros _; apply st_ret]. Qed.
Lemma st_error : sticky error.
Proof. apply st_upd. reflexivity. Qed.
Lemma st_advance : sticky advance.
Proof. intros p a q E X. unfold advance in X. destruct (next_token _ _) as [[ts t] b]. injection X as <- <-. destruct b; [reflexivity|exact E]. Qed.
Lemma st_at k : sticky (at_kind k). Proof. apply st_get. Qed.
Lemma st_consume k : sticky (consume k).
Proof. apply st_bind; [apply st_at|]. intros [|]; [apply st_advance|apply st_error]. Qed.
Lemma st_emit l : sticky (emit l). Proof. apply st_upd. auto. Qed.
Lemma st_here : sticky here. Proof. apply st_get. Qed.
Lemma st_write o l : sticky (write_at o l). Proof. apply st_upd. intros p E. destruct (_ <? _)%N; exact E. Qed.
Lemma st_name s : sticky (add_name s).
Proof. intros p a q E X. unfold add_name in X. destruct (strtab_add _ _). injection X as <- <-. exact E. Qed.
Lemma st_number s : sticky (number_i64 s). Proof. apply st_result. Qed.

Ltac st1 := lazymatch goal with
  | |- sticky (ret _) => apply st_ret
  | |- sticky (get _) => apply st_get
  | |- sticky (undef _) => apply st_undef
  | |- sticky no_fuel => apply st_fuel
  | |- sticky (of_result _) => apply st_result
  | |- sticky (pbind _ _) => apply st_bind; [|intro]
  | |- sticky (when _ _) => apply st_when
  | |- sticky error => apply st_error
  | |- sticky advance => apply st_advance
  | |- sticky (at_kind _) => apply st_at
  | |- sticky (consume _) => apply st_consume
  | |- sticky (emit _) => apply st_emit
  | |- sticky here => apply st_here
  | |- sticky (write_at _ _) => apply st_write
  | |- sticky (add_name _) => apply st_name
  | |- sticky (number_i64 _) => apply st_number
  | |- sticky (upd_p _) => apply st_upd; solve [auto]
  | |- sticky (match ?x with _ => _ end) => destruct x
  | |- sticky (let _ := _ in _) => cbv zeta
  | |- sticky _ => match goal with H : _ |- _ => simple apply H end
  end.
Ltac st := repeat st1.
Lemma path_sticky f : forall n, sticky (path_loop f n).
Proof. induction f as [|f IH]; intros; cbn [path_loop]; st. Qed.
Lemma load_sticky f n : sticky (load_name f n).
Proof. pose proof path_sticky. unfold load_name. st. Qed.
Lemma prec_sticky E f : (forall n, sticky (parse_precedence E f n)) /\ (forall n t, sticky (infix_loop E f n t)).
Proof.
  induction f as [|f (P & I)]; (split; intros; [|]); try apply st_fuel.
  - pose proof load_sticky. cbn [parse_precedence]. st.
  - cbn [infix_loop]. st.
Qed.
Lemma expr_sticky E f : sticky (parse_expression E f).
Proof. apply prec_sticky. Qed.
Lemma token_sticky : sticky take_number. Proof. unfold take_number. st. Qed.
Lemma u32_sticky : sticky take_u32. Proof. pose proof token_sticky. unfold take_u32. st. Qed.
Lemma i64_sticky : sticky take_i64. Proof. pose proof token_sticky. unfold take_i64. st. Qed.
Lemma double_sticky E : sticky (take_double E). Proof. pose proof token_sticky. unfold take_double. st. Qed.
Lemma poly_sticky E f : forall l, sticky (poly_loop E f l).
Proof. pose proof (double_sticky E). induction f as [|f IH]; intros; cbn [poly_loop]; st. Qed.
Lemma spline_sticky E f : forall l, sticky (spline_loop E f l).
Proof. pose proof (double_sticky E). induction f as [|f IH]; intros; cbn [spline_loop]; st. Qed.
Lemma skip_sticky f : sticky (skip_to_paren f).
Proof. induction f as [|f IH]; cbn [skip_to_paren]; st. Qed.
Lemma pad_sticky n : sticky (add_pad n).
Proof. apply st_upd. intros p E. repeat match goal with |- context [if ?b then _ else _] => destruct b end; exact E. Qed.
Lemma bits_sticky n : sticky (add_bits n).
Proof. intros p a q E X. unfold add_bits in X. repeat match type of X with context [if ?b then _ else _] => destruct b end; try discriminate; injection X as <- <-; exact E. Qed.
Lemma zero_sticky : sticky zero_bits.
Proof. apply st_upd. intros p E. repeat match goal with |- context [if ?b then _ else _] => destruct b end; exact E. Qed.
Lemma args_sticky E f t d : sticky (deco_args E f t d).
Proof.
  pose proof (poly_sticky E). pose proof (spline_sticky E). pose proof skip_sticky. pose proof (expr_sticky E). pose proof u32_sticky. pose proof i64_sticky.
  pose proof (double_sticky E). pose proof token_sticky. pose proof pad_sticky. pose proof load_sticky. unfold deco_args. st.
Qed.
Lemma decorator_sticky E f d : sticky (decorator E f d).
Proof. pose proof (args_sticky E). pose proof u32_sticky. pose proof zero_sticky. unfold decorator. st. Qed.
Lemma decorators_sticky E f : forall d, sticky (decorators E f d).
Proof. pose proof (decorator_sticky E). induction f as [|f IH]; intros; cbn [decorators]; st. Qed.
Lemma docs_sticky f : sticky (skip_docs f).
Proof. induction f as [|f IH]; cbn [skip_docs]; st. Qed.
Lemma range_sticky E op a b : sticky (emit_range_check E op a b).
Proof. unfold emit_range_check. st. Qed.
Lemma shape_sticky ty d : sticky (field_shape ty d).
Proof. pose proof u32_sticky. pose proof token_sticky. unfold field_shape. st. Qed.
Lemma const_sticky E ty d k v : sticky (const_field E ty d k v).
Proof. pose proof (range_sticky E). unfold const_field. st. Qed.
Lemma basic_sticky E ty d w k : sticky (basic_field E ty d w k).
Proof. pose proof (range_sticky E). pose proof bits_sticky. unfold basic_field. st. Qed.
Lemma enum_field_sticky E d w k e : sticky (enum_field E d w k e).
Proof. pose proof (range_sticky E). unfold enum_field. st. Qed.
Lemma string_sticky d w k s : sticky (string_field d w k s).
Proof. unfold string_field. st. Qed.
Lemma struct_field_sticky ty n d w k c : sticky (struct_field ty n d w k c).
Proof.
  unfold struct_field. st. intros p b q E X. destruct (append_with_prefix _ _ _ _ _) as [[[ss oo]|]|]; try discriminate. injection X as <- <-. exact E.
Qed.
Lemma field_sticky E d : sticky (field_rest E d).
Proof.
  pose proof shape_sticky. pose proof (const_sticky E). pose proof (basic_sticky E). pose proof (enum_field_sticky E). pose proof string_sticky. pose proof struct_field_sticky.
  unfold field_rest. st. intros p b q E0 X. destruct (strtab_add _ _) as [fs i]. injection X as <- <-. destruct (_ =? _)%N; [reflexivity|exact E0].
Qed.
Lemma value_sticky : sticky case_value.
Proof. unfold case_value. st. Qed.
Lemma patch_sticky l t : sticky (patch_jumps l t).
Proof. induction l as [|j l IH]; cbn [patch_jumps]; st. Qed.
Lemma head_sticky : sticky switch_head.
Proof. unfold switch_head. st. Qed.
Lemma tail_sticky l c j d : sticky (switch_tail l c j d).
Proof. pose proof patch_sticky. unfold switch_tail. st. Qed.
Lemma stmt_sticky E f : sticky (parse_field E f) /\ sticky (parse_if E f) /\ sticky (parse_block E f) /\ sticky (block_loop E f) /\
  forall l c j d, sticky (case_loop E f l c j d).
Proof.
  induction f as [|f (A & B & C & D & F)]; (split; [|split; [|split; [|split]]]; intros); try apply st_fuel.
  - pose proof docs_sticky. pose proof (decorators_sticky E). pose proof (field_sticky E). pose proof head_sticky. cbn [parse_field]. st.
  - pose proof (expr_sticky E). cbn [parse_if]. st.
  - cbn [parse_block]. st.
  - cbn [block_loop]. st.
  - pose proof value_sticky. pose proof tail_sticky. cbn [case_loop]. st.
Qed.
Lemma enum_loop_sticky f : forall n v x, sticky (enum_loop f n v x).
Proof. pose proof i64_sticky. induction f as [|f IH]; intros; cbn [enum_loop]; st. Qed.
Lemma enum_sticky f : sticky (parse_enum f).
Proof. pose proof enum_loop_sticky. unfold parse_enum. st. Qed.
Lemma struct_sticky E f : sticky (parse_struct E f).
Proof. destruct (stmt_sticky E f) as (_ & _ & H & _). unfold parse_struct. st. Qed.
Lemma packet_sticky E f : sticky (parse_packet E f).
Proof. destruct (stmt_sticky E f) as (_ & _ & H & _). unfold parse_packet. st. Qed.
Lemma top_sticky E f : sticky (top_level E f) /\ sticky (top_decorators E f) /\ sticky (parse_import E f).
Proof.
  induction f as [|f (A & B & C)]; (split; [|split]); try apply st_fuel.
  - pose proof (struct_sticky E). pose proof enum_sticky. pose proof (packet_sticky E). cbn [top_level]. st.
  - pose proof skip_sticky. pose proof u32_sticky. cbn [top_decorators]. st.
  - cbn [parse_import]. st.
Qed.

(** ** Functions that fail, whatever the fuel *)
Definition fails {A} (m : nat -> par A) (p : pst) : Prop := forall f a q, m f p = POk a q -> p_err q = true.
Lemma fails_late {A} (m : nat -> par A) p n : (forall f g, f <= g -> agree (m f) (m g)) -> (forall f a q, n <= f -> m f p = POk a q -> p_err q = true) -> fails m p.
Proof.
  intros MO L f a q X. destruct (MO f (f + n) ltac:(lia) p) as [Y|Y]; [congruence|]. apply (L (f + n) a q); [lia|congruence].
Qed.
