(** The names of the structures and enumerations, and the places that are remembered of them. *)
From Coq Require Import Strings.String Lia.
From Verif Require Import Base ModelFloat ModelVM ModelImage ModelText ModelNames ModelParse ModelSchema ModelDiag.
Local Open Scope nat_scope.

Section Outline.
Variable E : env.
Definition same p q : Prop := p_structs q = p_structs p /\ p_enums q = p_enums p /\ p_sites q = p_sites p.
Definition iv {A} (m : par A) : Prop := forall p a q, m p = POk a q -> same p q.
Ltac s7 := intros; repeat split.
Lemma fr_ret {A} (a : A) : iv (ret a).
Proof. intros p b q X. injection X as <- <-. s7. Qed.
Lemma fr_get {A} (f : pst -> A) : iv (get f).
Proof. intros p b q X. injection X as <- <-. s7. Qed.
Lemma fr_upd f : (forall p, same p (f p)) -> iv (upd_p f).
Proof. intros F p b q X. injection X as <- <-. apply F. Qed.
Lemma fr_undef {A} u : iv (@undef A u). Proof. intros p a q X. discriminate. Qed.
Lemma fr_fuel {A} : iv (@no_fuel A). Proof. intros p a q X. discriminate. Qed.
Lemma fr_result {A} (r : result A) : iv (of_result r).
Proof. destruct r; [apply fr_ret|apply fr_undef]. Qed.
Lemma fr_bind {A B} (m : par A) (k : A -> par B) : iv m -> (forall a, iv (k a)) -> iv (pbind m k).
Proof.
  intros M K p b q X. unfold pbind in X. destruct (m p) as [a r| |] eqn:EM; try discriminate.
  destruct (M _ _ _ EM) as (J1 & J2 & J3). destruct (K _ _ _ _ X) as (L1 & L2 & L3). repeat split; congruence.
Qed.
Lemma fr_when b m : iv m -> iv (when b m).
Proof. destruct b; [auto|intros _; apply fr_ret]. Qed.
Lemma fr_error : iv error.
Proof. intros p b q X. injection X as <- <-. s7. Qed.
Lemma fr_advance : iv advance.
Proof. intros p a q X. unfold advance in X. destruct (next_token _ _) as [[ts t] b]. destruct b; injection X as <- <-; s7. Qed.
Lemma fr_at k : iv (at_kind k). Proof. apply fr_get. Qed.
Lemma fr_consume k : iv (consume k).
Proof. apply fr_bind; [apply fr_at|]. intros [|]; [apply fr_advance|apply fr_error]. Qed.
Lemma fr_emit l : iv (emit l). Proof. apply fr_upd. s7. Qed.
Lemma fr_here : iv here. Proof. apply fr_get. Qed.
Lemma fr_write o l : iv (write_at o l). Proof. apply fr_upd. intros p. destruct (_ <? _)%N; s7. Qed.
Lemma fr_name s : iv (add_name s).
Proof. intros p a q X. unfold add_name in X. destruct (strtab_add _ _). injection X as <- <-. s7. Qed.
Lemma fr_number s : iv (number_i64 s). Proof. apply fr_result. Qed.

Ltac fr1 := lazymatch goal with
  | |- iv (ret _) => apply fr_ret
  | |- iv (get _) => apply fr_get
  | |- iv (undef _) => apply fr_undef
  | |- iv no_fuel => apply fr_fuel
  | |- iv (of_result _) => apply fr_result
  | |- iv (pbind _ _) => apply fr_bind; [|intro]
  | |- iv (when _ _) => apply fr_when
  | |- iv error => apply fr_error
  | |- iv advance => apply fr_advance
  | |- iv (at_kind _) => apply fr_at
  | |- iv (consume _) => apply fr_consume
  | |- iv (emit _) => apply fr_emit
  | |- iv here => apply fr_here
  | |- iv (write_at _ _) => apply fr_write
  | |- iv (add_name _) => apply fr_name
  | |- iv (number_i64 _) => apply fr_number
  | |- iv (upd_p _) => apply fr_upd; solve [s7]
  | |- iv (match ?x with _ => _ end) => destruct x
  | |- iv (let _ := _ in _) => cbv zeta
  | |- iv _ => match goal with H : _ |- _ => simple apply H end
  end.
Ltac fr := repeat fr1.
Lemma path_iv f : forall n, iv (path_loop f n).
Proof. induction f as [|f IH]; intros; cbn [path_loop]; fr. Qed.
Lemma load_iv f n : iv (load_name f n).
Proof. pose proof path_iv. unfold load_name. fr. Qed.
Lemma prec_iv f : (forall n, iv (parse_precedence E f n)) /\ (forall n t, iv (infix_loop E f n t)).
Proof.
  induction f as [|f (P & I)]; (split; intros; [|]); try apply fr_fuel.
  - pose proof load_iv. cbn [parse_precedence]. fr.
  - cbn [infix_loop]. fr.
Qed.
Lemma expr_iv f : iv (parse_expression E f).
Proof. apply prec_iv. Qed.
Lemma token_iv : iv take_number. Proof. unfold take_number. fr. Qed.
Lemma u32_iv : iv take_u32. Proof. pose proof token_iv. unfold take_u32. fr. Qed.
Lemma i64_iv : iv take_i64. Proof. pose proof token_iv. unfold take_i64. fr. Qed.
Lemma double_iv : iv (take_double E). Proof. pose proof token_iv. unfold take_double. fr. Qed.
Lemma poly_iv f : forall l, iv (poly_loop E f l).
Proof. pose proof double_iv. induction f as [|f IH]; intros; cbn [poly_loop]; fr. Qed.
Lemma spline_iv f : forall l, iv (spline_loop E f l).
Proof. pose proof double_iv. induction f as [|f IH]; intros; cbn [spline_loop]; fr. Qed.
Lemma skip_iv f : iv (skip_to_paren f).
Proof. induction f as [|f IH]; cbn [skip_to_paren]; fr. Qed.
Lemma pad_iv n : iv (add_pad n).
Proof. apply fr_upd; intros; cbn; repeat match goal with |- context [if ?b then _ else _] => destruct b end; s7. Qed.
Lemma bits_iv n : iv (add_bits n).
Proof.
  intros p a q. unfold add_bits. cbn. repeat match goal with |- context [if ?b then _ else _] => destruct b end; try discriminate;
    intros X; injection X as <- <-; s7.
Qed.
Lemma zero_iv : iv zero_bits.
Proof. apply fr_upd; intros; cbn; repeat match goal with |- context [if ?b then _ else _] => destruct b end; s7. Qed.
Lemma args_iv f t d : iv (deco_args E f t d).
Proof.
  pose proof poly_iv. pose proof spline_iv. pose proof skip_iv. pose proof expr_iv. pose proof u32_iv. pose proof i64_iv.
  pose proof double_iv. pose proof token_iv. pose proof pad_iv. pose proof load_iv. unfold deco_args. fr.
Qed.
Lemma decorator_iv f d : iv (decorator E f d).
Proof. pose proof args_iv. pose proof u32_iv. pose proof zero_iv. unfold decorator. fr. Qed.
Lemma decorators_iv f : forall d, iv (decorators E f d).
Proof. pose proof decorator_iv. induction f as [|f IH]; intros; cbn [decorators]; fr. Qed.
Lemma docs_iv f : iv (skip_docs f).
Proof. induction f as [|f IH]; cbn [skip_docs]; fr. Qed.
Lemma range_iv op a b : iv (emit_range_check E op a b).
Proof. unfold emit_range_check. fr. Qed.
Lemma shape_iv ty d : iv (field_shape ty d).
Proof. pose proof u32_iv. pose proof token_iv. unfold field_shape. fr. Qed.
Lemma const_iv ty d k v : iv (const_field E ty d k v).
Proof. pose proof range_iv. unfold const_field. fr. Qed.
Lemma basic_iv ty d w k : iv (basic_field E ty d w k).
Proof. pose proof range_iv. pose proof bits_iv. unfold basic_field. fr. Qed.
Lemma enum_field_iv d w k e : iv (enum_field E d w k e).
Proof. pose proof range_iv. unfold enum_field. fr. Qed.
Lemma string_iv d w k s : iv (string_field d w k s).
Proof. unfold string_field. fr. Qed.
Lemma struct_field_iv ty n d w k c : iv (struct_field ty n d w k c).
Proof.
  unfold struct_field. fr. intros p uu q.
  match goal with |- context [append_with_prefix ?a ?b ?c ?d ?e] => destruct (append_with_prefix a b c d e) as [[[ss oo]|]|] end; intros X; try discriminate;
    injection X as <- <-; s7.
Qed.
Lemma field_iv d : iv (field_rest E d).
Proof.
  pose proof shape_iv. pose proof const_iv. pose proof basic_iv. pose proof enum_field_iv. pose proof string_iv. pose proof struct_field_iv.
  unfold field_rest. fr; intros p uu q X. destruct (strtab_add _ _) as [fs i]. cbn in X. destruct (_ =? _)%N; injection X as <- <-; s7.
Qed.
Lemma value_iv : iv case_value.
Proof. unfold case_value. fr. Qed.
Lemma patch_iv l t : iv (patch_jumps l t).
Proof. induction l as [|j l IH]; cbn [patch_jumps]; fr. Qed.
Lemma head_iv : iv switch_head.
Proof. unfold switch_head. fr. Qed.
Lemma tail_iv l c j d : iv (switch_tail l c j d).
Proof. pose proof patch_iv. unfold switch_tail. fr. Qed.
Lemma stmt_iv f : iv (parse_field E f) /\ iv (parse_if E f) /\ iv (parse_block E f) /\ iv (block_loop E f) /\
  forall l c j d, iv (case_loop E f l c j d).
Proof.
  induction f as [|f (A & B & C & D & F)]; (split; [|split; [|split; [|split]]]; intros); try apply fr_fuel.
  - pose proof docs_iv. pose proof decorators_iv. pose proof field_iv. pose proof head_iv. cbn [parse_field]. fr.
  - pose proof expr_iv. cbn [parse_if]. fr.
  - cbn [parse_block]. fr.
  - cbn [block_loop]. fr.
  - pose proof value_iv. pose proof tail_iv. cbn [case_loop]. fr.
Qed.
Lemma enum_loop_iv f : forall n v x, iv (enum_loop f n v x).
Proof. pose proof i64_iv. induction f as [|f IH]; intros; cbn [enum_loop]; fr. Qed.

(** ** Definitions *)
Definition names (e : bool) p : list (list N) := map site_name (filter (fun s => Bool.eqb (site_enum s) e) (p_sites p)).
Definition ok p : Prop := names false p = map fst (p_structs p) /\ names true p = map en_name (p_enums p).
Lemma same_ok p q : same p q -> ok p -> ok q.
Proof. unfold same, ok, names. intros (-> & -> & ->). auto. Qed.
Definition go {A} (m : par A) : Prop := forall p a q, m p = POk a q -> ok p -> ok q.
Lemma iv_go {A} (m : par A) : iv m -> go m.
Proof. intros M p a q X. apply same_ok. eapply M; eauto. Qed.
Lemma go_bind {A B} (m : par A) (k : A -> par B) : go m -> (forall a, go (k a)) -> go (pbind m k).
Proof. intros M K p b q X O. unfold pbind in X. destruct (m p) as [a r| |] eqn:EM; try discriminate. eapply K; [exact X|]. eapply M; eauto. Qed.
Lemma enum_go f : go (parse_enum f).
Proof.
  pose proof enum_loop_iv. unfold parse_enum. repeat (apply go_bind; [apply iv_go; fr|intro]).
  intros p b q X (A & B). injection X as <- <-. unfold ok, names in *. cbn [p_sites add_site p_structs p_enums set_defs]. rewrite !filter_app, !map_app. cbn. rewrite !app_nil_r. split; [exact A|now rewrite B].
Qed.
Lemma struct_go f : go (parse_struct E f).
Proof.
  destruct (stmt_iv f) as (_ & _ & H & _). unfold parse_struct. do 3 (apply go_bind; [apply iv_go; fr|intro]). apply go_bind; [apply iv_go; fr|intro].
  intros p b q X (A & B). unfold pbind at 1, get at 1 in X. unfold pbind at 1, upd_p at 1 in X. set (p1 := add_site _ _ _) in X.
  match type of X with pbind ?m ?k p1 = _ => assert (M : exists r, same p1 r /\ q = set_bits (p_unaligned r) (p_bitmode p) (p_bits p) (p_bits_valid p)
      (set_struct (p_sname p) [] (set_out (p_out p) (set_defs (p_structs p ++ [(ttext a, p_out r)]) (p_enums r) r)))) end.
  { revert X. generalize p1. clear p1 A B. intros p1 X.
    unfold pbind at 1 in X. destruct (when _ _ p1) as [u r| |] eqn:E1; try discriminate.
    assert (S1 : same p1 r) by (eapply (fr_when (p_unaligned p) (emit [37; 2]%N ;; upd_p (set_bits false true 0 true))); [fr|exact E1]).
    unfold pbind at 1 in X. destruct (parse_block E f r) as [u2 r2| |] eqn:E2; try discriminate. pose proof (H _ _ _ E2) as S2.
    unfold pbind at 1, get at 1 in X. unfold pbind at 1 in X. destruct (when _ _ r2) as [u3 r3| |] eqn:E3; try discriminate.
    assert (S3 : same r2 r3) by (match type of E3 with ?m r2 = _ => assert (G : iv m) by fr; exact (G _ _ _ E3) end).
    injection X as _ <-. exists r3. split; [|reflexivity]. destruct S1 as (? & ? & ?), S2 as (? & ? & ?), S3 as (? & ? & ?). repeat split; congruence. }
  clear X. destruct M as (r & (S1 & S2 & S3) & ->). unfold ok, names in *. cbn [p_sites p_structs p_enums set_defs set_bits set_struct set_out]. rewrite S2, S3.
  subst p1. cbn [p_sites add_site p_structs p_enums set_defs set_bits set_struct set_out]. rewrite !filter_app, !map_app. cbn. rewrite !app_nil_r. split; [now rewrite A|exact B].
Qed.
Lemma packet_iv f : iv (parse_packet E f).
Proof. destruct (stmt_iv f) as (_ & _ & H & _). unfold parse_packet. fr. Qed.
Lemma top_go f : go (top_level E f) /\ go (top_decorators E f) /\ go (parse_import E f).
Proof.
  induction f as [|f (A & B & C)]; (split; [|split]); try (apply iv_go, fr_fuel).
  - pose proof packet_iv. cbn [top_level]. apply go_bind; [apply iv_go; fr|intro t]. apply go_bind; [apply iv_go; fr|intro er]. destruct (_ || _); [apply iv_go; fr|].
    destruct (is_kind TDoc t); [apply go_bind; [apply iv_go; fr|intro; exact A]|]. apply go_bind; [exact B|intros _]. apply go_bind; [apply iv_go; fr|intro c].
    apply go_bind; [|intros _; exact A]. destruct c; try (solve [apply iv_go; fr]).
    + apply go_bind; [apply iv_go; fr|intro; apply struct_go].
    + apply go_bind; [apply iv_go; fr|intro; apply enum_go].
  - pose proof u32_iv. pose proof skip_iv. cbn [top_decorators]. apply go_bind; [apply iv_go; fr|intro b]. destruct (negb b); [apply iv_go; fr|].
    do 3 (apply go_bind; [apply iv_go; fr|intro]). apply go_bind; [|intro; exact B]. repeat match goal with |- go (if ?b then _ else _) => destruct b end; try exact C; apply iv_go; fr.
  - cbn [parse_import]. do 4 (apply go_bind; [apply iv_go; fr|intro]). destruct (_ <=? _)%N; [apply iv_go; fr|].
    apply go_bind; [apply iv_go; fr|intro p0]. cbv zeta. destruct (existsb _ _); [apply iv_go; fr|].
    apply go_bind; [apply iv_go; fr|intro]. destruct (e_read E _); [|apply iv_go; fr]. destruct (lex _); [|apply iv_go; fr].
    apply go_bind; [apply iv_go; fr|intro]. apply go_bind; [apply iv_go; fr|intro]. apply go_bind; [exact A|intro]. apply iv_go. fr.
Qed.
Lemma analyse_names fuel path src p : analyse E fuel path src = POk tt p -> ok p.
Proof.
  unfold analyse. destruct (lex src) as [toks|]; [|discriminate]. intros X. eapply (go_bind _ _ (iv_go _ fr_advance) (fun _ => proj1 (top_go fuel))); [exact X|]. split; reflexivity.
Qed.
End Outline.
