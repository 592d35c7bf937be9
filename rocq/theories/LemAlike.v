(** The compiler sees only the kinds and the texts of the tokens. *)
From Coq Require Import Strings.String.
From Verif Require Import Base ModelFloat ModelVM ModelImage ModelText SpecText ModelFmt SpecFmt ModelNames ModelParse ModelSchema SpecAlike LemFmt LemFmtSame LemLex.

Inductive alike : token -> token -> Prop :=
| Alike k s a b x y : alike {| tk := k; tpos := a; ttext := s; tline := x |} {| tk := k; tpos := b; ttext := s; tline := y |}.

Lemma alike_kind t t' : alike t t' -> tk t' = tk t. Proof. now destruct 1. Qed.
Lemma alike_text t t' : alike t t' -> ttext t' = ttext t. Proof. now destruct 1. Qed.
Lemma alike_is k t t' : alike t t' -> is_kind k t' = is_kind k t. Proof. now destruct 1. Qed.
Lemma alike_kw w t t' : alike t t' -> match_keyword t' w = match_keyword t w. Proof. now destruct 1. Qed.
Lemma alike_any ws t t' : alike t t' -> match_any t' ws = match_any t ws. Proof. now destruct 1. Qed.
Lemma alike_int t t' : alike t t' -> int_name t' = int_name t. Proof. now destruct 1. Qed.
Lemma alike_type t t' : alike t t' -> type_name t' = type_name t. Proof. now destruct 1. Qed.
Lemma alike_base t t' : alike t t' -> enum_base t' = enum_base t. Proof. now destruct 1. Qed.
Lemma alike_ops a b c t t' : alike t t' -> prefix_ops t' a b c = prefix_ops t a b c. Proof. now destruct 1. Qed.
Lemma alike_fun t t' : alike t t' -> function1 t' = function1 t. Proof. now destruct 1. Qed.
Lemma alike_refl t : alike t t. Proof. destruct t. constructor. Qed.

Lemma code_alike ts : forall ts', code ts = code ts' -> Forall2 alike ts ts'.
Proof.
  induction ts as [|t ts IH]; intros [|t' ts'] H; try discriminate; constructor.
  - cbn in H. injection H as A B C. destruct t, t'. cbn in *. subst. constructor.
  - apply IH. cbn in H. now injection H.
Qed.

(** States that differ in positions only *)
Inductive same_p : pst -> pst -> Prop :=
| Same_p ts ts' c c' v v' a1 a2 a3 a4 a5 a6 a7 a8 a9 b1 b2 b3 b4 b5 b6 e e' w w' :
    Forall2 alike ts ts' -> alike c c' -> alike v v' ->
    same_p (mkp ts c v a1 a2 a3 a4 a5 a6 a7 a8 a9 b1 b2 b3 b4 b5 b6 e w) (mkp ts' c' v' a1 a2 a3 a4 a5 a6 a7 a8 a9 b1 b2 b3 b4 b5 b6 e' w').

Definition outcomes {A A'} (R : A -> A' -> Prop) (r : pres A) (r' : pres A') : Prop :=
  match r, r' with
  | POk a q, POk a' q' => R a a' /\ same_p q q'
  | PUb u, PUb u' => u = u'
  | PFuel, PFuel => True
  | _, _ => False
  end.
Definition sim {A A'} (R : A -> A' -> Prop) (m : par A) (m' : par A') : Prop := forall p p', same_p p p' -> outcomes R (m p) (m' p').

Lemma bind_sim {A A' B B'} (R : A -> A' -> Prop) (Q : B -> B' -> Prop) m m' k k' :
  sim R m m' -> (forall a a', R a a' -> sim Q (k a) (k' a')) -> sim Q (pbind m k) (pbind m' k').
Proof.
  intros M K p p' P. unfold pbind. specialize (M p p' P). unfold outcomes in M.
  destruct (m p) as [a q|u|], (m' p') as [a' q'|u'|]; try easy. destruct M as (r & X). apply (K a a' r q q' X).
Qed.
Lemma ret_sim {A A'} (R : A -> A' -> Prop) a a' : R a a' -> sim R (ret a) (ret a').
Proof. intros r p p' P. now split. Qed.
Lemma fuel_sim {A A'} (R : A -> A' -> Prop) : sim R no_fuel no_fuel. Proof. now intros p p' P. Qed.
Lemma undef_sim {A A'} (R : A -> A' -> Prop) u : sim R (undef u) (undef u). Proof. now intros p p' P. Qed.
Lemma result_sim {A} (r : result A) : sim eq (of_result r) (of_result r).
Proof. destruct r; [now apply ret_sim|apply undef_sim]. Qed.
Lemma get_sim {A A'} (R : A -> A' -> Prop) f f' : (forall p p', same_p p p' -> R (f p) (f' p')) -> sim R (get f) (get f').
Proof. intros H p p' P. split; auto. Qed.
Lemma upd_sim f f' : (forall p p', same_p p p' -> same_p (f p) (f' p')) -> sim eq (upd_p f) (upd_p f').
Proof. intros H p p' P. split; auto. Qed.

Ltac flat := intros; match goal with H : same_p _ _ |- _ => destruct H end; cbn; try reflexivity; try assumption; try (constructor; assumption).

Lemma error_sim : sim eq error error. Proof. apply upd_sim. flat. Qed.
Lemma emit_sim l : sim eq (ModelParse.emit l) (ModelParse.emit l). Proof. apply upd_sim. flat. Qed.
Lemma here_sim : sim eq here here. Proof. apply get_sim. flat. Qed.
Lemma write_sim a l : sim eq (write_at a l) (write_at a l).
Proof. apply upd_sim. intros ? ? H. destruct H. cbn [p_out]. destruct (_ <? _); constructor; assumption. Qed.
Lemma name_sim s : sim eq (add_name s) (add_name s).
Proof. intros p p' P. destruct P. unfold add_name. cbn [p_strs]. destruct (strtab_add _ _). split; [reflexivity|]. constructor; assumption. Qed.
Lemma number_sim s : sim eq (number_i64 s) (number_i64 s). Proof. apply result_sim. Qed.
Lemma cur_sim : sim alike (get p_cur) (get p_cur). Proof. apply get_sim. flat. Qed.
Lemma prev_sim : sim alike (get p_prev) (get p_prev). Proof. apply get_sim. flat. Qed.
Lemma kind_sim : sim eq (get (fun p => tk (p_cur p))) (get (fun p => tk (p_cur p))).
Proof. apply get_sim. flat. symmetry. now apply alike_kind. Qed.
Lemma at_sim k : sim eq (at_kind k) (at_kind k).
Proof. apply get_sim. flat. symmetry. now apply alike_is. Qed.
Lemma err_sim : sim eq (get p_err) (get p_err). Proof. apply get_sim. flat. Qed.
Lemma next_sim ts ts' : Forall2 alike ts ts' -> forall b, exists r r' o o' c, next_token ts b = (r, o, c) /\ next_token ts' b = (r', o', c)
  /\ Forall2 alike r r' /\ match o, o' with Some t, Some t' => alike t t' | None, None => True | _, _ => False end.
Proof.
  induction 1 as [|t t' ts ts' A F IH]; intros b.
  - cbn. do 5 eexists. repeat split; auto.
  - cbn [next_token]. rewrite (alike_kind _ _ A). destruct (IH true) as (r & r' & o & o' & c & H).
    destruct (tk t); try (do 5 eexists; repeat split; [exact F|exact A]); [|exists r, r', o, o', c; exact H].
    do 5 eexists. repeat split; [|exact A]. now constructor.
Qed.
Lemma advance_sim : sim eq advance advance.
Proof.
  intros p p' P. destruct P as [ts ts' c c' v v' a1 a2 a3 a4 a5 a6 a7 a8 a9 b1 b2 b3 b4 b5 b6 e e' w w' F C V]. unfold advance. cbn [p_toks p_cur].
  destruct (next_sim _ _ F false) as (r & r' & o & o' & x & -> & -> & F' & O). split; [reflexivity|].
  destruct o as [t|], o' as [t'|]; try easy; destruct x; constructor; assumption.
Qed.

Ltac toks :=
  repeat match goal with
  | H : alike ?t ?u |- context [tk ?u] => rewrite (alike_kind _ _ H)
  | H : alike ?t ?u |- context [ttext ?u] => rewrite (alike_text _ _ H)
  | H : alike ?t ?u |- context [is_kind ?k ?u] => rewrite (alike_is k _ _ H)
  | H : alike ?t ?u |- context [match_keyword ?u ?w] => rewrite (alike_kw w _ _ H)
  | H : alike ?t ?u |- context [match_any ?u ?w] => rewrite (alike_any w _ _ H)
  | H : alike ?t ?u |- context [int_name ?u] => rewrite (alike_int _ _ H)
  | H : alike ?t ?u |- context [type_name ?u] => rewrite (alike_type _ _ H)
  | H : alike ?t ?u |- context [enum_base ?u] => rewrite (alike_base _ _ H)
  | H : alike ?t ?u |- context [function1 ?u] => rewrite (alike_fun _ _ H)
  | H : alike ?t ?u |- context [prefix_ops ?u ?a ?b ?c] => rewrite (alike_ops a b c _ _ H)
  end.

(** Decorations that differ in the positions of the bounds of a range only *)
Inductive like_range : option (token * token) -> option (token * token) -> Prop :=
| LNone : like_range None None
| LSome a a' b b' : alike a a' -> alike b b' -> like_range (Some (a, b)) (Some (a', b')).
Inductive like_deco : deco -> deco -> Prop :=
| Like_deco a1 a2 a3 a4 r r' a5 a6 a7 a8 a9 b1 b2 b3 b4 b5 b6 b7 b8 b9 c1 : like_range r r' ->
    like_deco (mkd a1 a2 a3 a4 r a5 a6 a7 a8 a9 b1 b2 b3 b4 b5 b6 b7 b8 b9 c1) (mkd a1 a2 a3 a4 r' a5 a6 a7 a8 a9 b1 b2 b3 b4 b5 b6 b7 b8 b9 c1).
Inductive like_pair {B} : deco * B -> deco * B -> Prop :=
| Like_pair d d' b : like_deco d d' -> like_pair (d, b) (d', b).
Lemma like_rng d d' : like_deco d d' -> some (d_range d') = some (d_range d). Proof. destruct 1 as [? ? ? ? ? ? ? ? ? ? ? ? ? ? ? ? ? ? ? ? ? H]. cbn. now destruct H. Qed.

Lemma consume_sim k : sim eq (consume k) (consume k).
Proof. unfold consume. eapply bind_sim; [apply at_sim|]. intros a ? <-. destruct a; [apply advance_sim|apply error_sim]. Qed.
Lemma when_sim b m m' : sim eq m m' -> sim eq (when b m) (when b m').
Proof. intros. destruct b; [assumption|now apply ret_sim]. Qed.

Ltac base := first [apply error_sim | apply emit_sim | apply here_sim | apply write_sim | apply name_sim | apply number_sim | apply cur_sim | apply prev_sim
  | apply kind_sim | apply at_sim | apply err_sim | apply advance_sim | apply consume_sim | apply fuel_sim | apply undef_sim | apply result_sim].
Ltac bind :=
  match goal with
  | |- @sim _ _ _ (@pbind ?A _ _ _) (@pbind _ _ _ _) =>
    match A with
    | token => apply (bind_sim alike)
    | deco => apply (bind_sim like_deco)
    | (deco * _)%type => apply (bind_sim like_pair)
    | pst => apply (bind_sim same_p)
    | _ => apply (bind_sim eq)
    end
  end.
Ltac tok_eq := repeat match goal with H : like_deco ?a ?b |- _ => match b with mkd _ _ _ _ _ _ _ _ _ _ _ _ _ _ _ _ _ _ _ _ => fail 1 | _ => destruct H end end.
(** [more]: what else is known *)
Ltac one more :=
  first
  [ solve [base]
  | solve [more]
  | apply ret_sim; toks; solve [reflexivity | assumption | constructor; constructor; assumption | constructor; assumption]
  | apply when_sim
  | match goal with
    | |- sim _ (pbind _ _) (pbind _ _) => bind; [|intros; subst; toks]
    | |- sim _ (if ?b then _ else _) (if ?b then _ else _) => destruct b
    | |- sim _ (match ?b with _ => _ end) (match ?b with _ => _ end) => destruct b
    end ].
Ltac go more := cbv zeta; toks; repeat one more.

Section Alike.
  Context (E E' : env) (SE : same_sources E E').
  Lemma double_eq s : parse_number_double E' s = parse_number_double E s.
  Proof. unfold parse_number_double. destruct SE as (A & _). now rewrite A. Qed.

  Lemma path_sim f : forall s, sim eq (path_loop f s) (path_loop f s).
  Proof. induction f; intros s; cbn [path_loop]; go ltac:(apply IHf). Qed.
  Lemma load_sim f s : sim eq (load_name f s) (load_name f s).
  Proof. unfold load_name. go ltac:(apply path_sim). Qed.
  Lemma prec_sim f : (forall lv, sim eq (parse_precedence E f lv) (parse_precedence E' f lv)) /\
    (forall lv t, sim eq (infix_loop E f lv t) (infix_loop E' f lv t)).
  Proof.
    induction f as [|f (I1 & I2)]; split; intros; try apply fuel_sim; cbn [parse_precedence infix_loop]; [|go ltac:(first [apply I1 | apply I2])].
    bind; [base|intros ? ? <-]. bind; [base|intros t t' T]. toks. rewrite !double_eq. bind; [base|intros r ? <-]. destruct (fst r) as [[]|]; [go ltac:(first [apply I1 | apply I2])..| |go fail].
    bind; [|intros ? ? <-; apply I2].
    match goal with |- sim _ (match tk t with TEof => ?m | _ => _ end) (match tk t with TEof => ?m' | _ => _ end) => assert (ID : sim eq m m') by go ltac:(first [apply I1 | apply load_sim]) end.
    destruct (tk t); try exact ID; go fail.
  Qed.
  Lemma expression_sim f : sim eq (parse_expression E f) (parse_expression E' f). Proof. apply prec_sim. Qed.

  Lemma take_sim : sim alike take_number take_number. Proof. unfold take_number. go fail. Qed.
  Lemma u32_sim : sim eq take_u32 take_u32. Proof. unfold take_u32. go ltac:(apply take_sim). Qed.
  Lemma i64_sim : sim eq take_i64 take_i64. Proof. unfold take_i64. go ltac:(apply take_sim). Qed.
  Lemma double_sim : sim eq (take_double E) (take_double E').
  Proof. unfold take_double. go ltac:(apply take_sim). apply ret_sim. now rewrite double_eq. Qed.
  Ltac takes := first [apply take_sim | apply u32_sim | apply i64_sim | apply double_sim].
  Lemma range_sim op a a' b b' : alike a a' -> alike b b' -> sim eq (emit_range_check E op a b) (emit_range_check E' op a' b').
  Proof. intros A B. unfold emit_range_check. rewrite !(alike_text _ _ A), !(alike_text _ _ B), !double_eq. go fail. Qed.
  Lemma poly_sim f : forall l, sim eq (poly_loop E f l) (poly_loop E' f l).
  Proof. induction f; intros l; cbn [poly_loop]; [apply fuel_sim|]. go fail; rewrite ?double_eq; go ltac:(apply IHf). Qed.
  Lemma spline_sim f : forall l, sim eq (spline_loop E f l) (spline_loop E' f l).
  Proof. induction f; intros l; cbn [spline_loop]; [apply fuel_sim|]. go takes; rewrite ?double_eq; go ltac:(first [takes|apply IHf]). Qed.
  Lemma skip_sim f : sim eq (skip_to_paren f) (skip_to_paren f).
  Proof. induction f; cbn [skip_to_paren]; [apply fuel_sim|]. go ltac:(apply IHf). Qed.
  Lemma pad_sim n : sim eq (add_pad n) (add_pad n).
  Proof. apply upd_sim. intros ? ? H. destruct H. cbn [p_bitmode p_bits_valid]. destruct (_ && _); constructor; assumption. Qed.
  Lemma bits_sim n : sim eq (add_bits n) (add_bits n).
  Proof. intros ? ? H. destruct H. unfold add_bits. cbn [p_bitmode p_bits_valid p_bits p_unaligned]. destruct (_ && _); [destruct (_ <? _)%Z; [reflexivity|]|]; (split; [reflexivity|]); constructor; assumption. Qed.
  Lemma zero_sim : sim eq zero_bits zero_bits.
  Proof. apply upd_sim. intros ? ? H. destruct H. cbn [p_bitmode p_bits_valid]. destruct (_ && _); constructor; assumption. Qed.
  Ltac small := first [takes | apply poly_sim | apply spline_sim | apply skip_sim | apply pad_sim | apply bits_sim | apply zero_sim | apply expression_sim].
  Lemma args_sim f t t' d d' : alike t t' -> like_deco d d' -> sim like_deco (deco_args E f t d) (deco_args E' f t' d').
  Proof. intros T D. destruct D. unfold deco_args. cbv zeta. toks. go small.

    apply ret_sim. repeat match goal with |- like_deco (match ?x with _ => _ end) _ => destruct x end; constructor; assumption.
  Qed.
  Lemma decorator_sim f d d' : like_deco d d' -> sim like_deco (decorator E f d) (decorator E' f d').
  Proof.
    intros D. unfold decorator. bind; [base|intros t t' T]. toks. bind; [base|intros ? ? <-]. cbv zeta.
    pose proof (args_sim f t t' d d' T D) as A. destruct D. go ltac:(first [exact A | small]).
  Qed.
  Lemma decorators_sim f : forall d d', like_deco d d' -> sim like_deco (decorators E f d) (decorators E' f d').
  Proof.
    induction f; intros d d' D; cbn [decorators]; [apply fuel_sim|]. go ltac:(first [apply decorator_sim; assumption | apply IHf; assumption]).
  Qed.

  Lemma shape_sim t t' d d' : alike t t' -> like_deco d d' -> sim like_pair (field_shape t d) (field_shape t' d').
  Proof.
    intros T D. unfold field_shape. bind; [base|intros b ? <-]. bind.
    - destruct D. go takes.
    - intros ? ? P. destruct P as [e e' o P]. destruct P. cbn [fst snd d_fixed d_count]. go takes.
  Qed.
  Lemma maybe_range_sim op r r' : like_range r r' ->
    sim eq match r with Some (lo, hi) => emit_range_check E op lo hi | None => ret tt end
           match r' with Some (lo, hi) => emit_range_check E' op lo hi | None => ret tt end.
  Proof. destruct 1; [now apply ret_sim|now apply range_sim]. Qed.
  Lemma const_sim t t' d d' k v : alike t t' -> like_deco d d' -> sim eq (const_field E t d k v) (const_field E' t' d' k v).
  Proof. intros T D. destruct D. unfold const_field. cbn [d_range]. go ltac:(apply maybe_range_sim; assumption). Qed.
  Lemma struct_sim t t' n n' d d' w k c : alike t t' -> alike n n' -> like_deco d d' -> sim eq (struct_field t n d w k c) (struct_field t' n' d' w k c).
  Proof.
    intros T M D. unfold struct_field. rewrite !(like_rng _ _ D). destruct D. cbn [d_crc d_kind has_trans]. toks.
    bind; [apply get_sim; flat|intros a ? <-]. toks. go fail.
    - intros p p' P. destruct P. cbn [p_strs p_out]. destruct (append_with_prefix _ _ _ _ _) as [[[]|]|]; [|reflexivity|exact Logic.I].
      split; [reflexivity|]. constructor; assumption.
  Qed.
  Lemma enum_sim d d' w k e : like_deco d d' -> sim eq (enum_field E d w k e) (enum_field E' d' w k e).
  Proof. intros D. destruct D. unfold enum_field. cbn [d_range d_crc has_trans d_kind]. go ltac:(apply maybe_range_sim; assumption). Qed.
  Lemma string_sim d d' w k s : like_deco d d' -> sim eq (string_field d w k s) (string_field d' w k s).
  Proof. intros D. unfold string_field. rewrite !(like_rng _ _ D). destruct D. cbn [d_crc has_trans d_kind]. go fail. Qed.
  Lemma basic_sim t t' d d' w k : alike t t' -> like_deco d d' -> sim eq (basic_field E t d w k) (basic_field E' t' d' w k).
  Proof.
    intros T D. unfold basic_field. bind; [apply get_sim; flat|intros bm ? <-]. cbv zeta. toks. destruct D.
    cbn [d_range d_crc d_expr d_crc_poly d_crc_init d_crc_xor d_refin d_refout]. destruct (0 <? _).
    - match goal with |- sim _ (match ?x with _ => _ end) _ => destruct x end; go ltac:(apply bits_sim).
    - destruct bm; [go fail|]. destruct (type_name t); [|go fail]. bind; [|intros; now apply ret_sim]. destruct b2 as [wd|].
      + destruct wd as [|q]; [now apply ret_sim|]. repeat (destruct q as [q|q|]; try (now apply ret_sim)); go fail.
      + go ltac:(apply maybe_range_sim; assumption).
  Qed.

  Lemma structs_sim s : sim eq (get (fun p => find_struct (p_structs p) s)) (get (fun p => find_struct (p_structs p) s)).
  Proof. apply get_sim. flat. Qed.
  Lemma enums_sim s : sim eq (get (fun p => find_enum (p_enums p) s)) (get (fun p => find_enum (p_enums p) s)).
  Proof. apply get_sim. flat. Qed.
  Lemma open_eq d d' s k : like_deco d d' -> open_code d' s k = open_code d s k. Proof. now destruct 1. Qed.
  Lemma trans_eq d d' : like_deco d d' -> trans_code d' = trans_code d. Proof. now destruct 1. Qed.
  Lemma rest_sim d d' : like_deco d d' -> sim eq (field_rest E d) (field_rest E' d').
  Proof.
    intros D. unfold field_rest. replace (d_alone d') with (d_alone d) by now destruct D. rewrite (trans_eq _ _ D).
    bind; [base|intros b1 ? <-]. bind; [base|intros b2 ? <-]. destruct (d_alone d && _); [go fail|].
    bind; [base|intros _ _ _]. bind; [base|intros t t' T]. bind; [base|intros _ _ _]. bind; [base|intros n n' M]. toks. destruct (is_kind TSelf n); [base|].
    bind; [base|intros _ _ _]. bind; [|intros _ _ _].
    { intros p p' P. destruct P. cbn [p_fields p_sname]. destruct (strtab_add _ _). split; [reflexivity|]. destruct (_ =? _); constructor; assumption. }
    bind; [base|intros k ? <-]. bind; [base|intros c ? <-]. bind; [go fail|intros w ? <-]. bind; [now apply shape_sim|intros ? ? P]. destruct P as [e e' s P].
    cbv zeta. cbn [fst snd]. replace (d_fixed e') with (d_fixed e) by now destruct P. replace (d_count e') with (d_count e) by now destruct P.
    replace (d_be e') with (d_be e) by now destruct P. replace (d_const e') with (d_const e) by now destruct P. rewrite (open_eq _ _ s k P). toks.
    bind; [go fail|intros _ _ _]. bind; [go fail|intros _ _ _]. bind; [go fail|intros _ _ _]. bind; [|intros g ? <-; go fail].
    go ltac:(first [apply structs_sim | apply enums_sim | now apply const_sim | now apply struct_sim | now apply enum_sim | now apply string_sim | now apply basic_sim]).
  Qed.
  Lemma docs_sim f : sim eq (skip_docs f) (skip_docs f).
  Proof. induction f; cbn [skip_docs]; go ltac:(apply IHf). Qed.
  Lemma value_sim : sim eq case_value case_value.
  Proof. unfold case_value. go ltac:(apply enums_sim). Qed.
  Lemma patch_sim l s : sim eq (patch_jumps l s) (patch_jumps l s).
  Proof. induction l; cbn [patch_jumps]; go ltac:(apply IHl). Qed.
  Lemma head_sim : sim eq switch_head switch_head. Proof. unfold switch_head. go fail. Qed.
  Lemma tail_sim a b c d : sim eq (switch_tail a b c d) (switch_tail a b c d). Proof. unfold switch_tail. go ltac:(apply patch_sim). Qed.

  Lemma fields_sim f : sim eq (parse_field E f) (parse_field E' f) /\ sim eq (parse_if E f) (parse_if E' f) /\ sim eq (parse_block E f) (parse_block E' f)
    /\ sim eq (block_loop E f) (block_loop E' f) /\ (forall a b c d, sim eq (case_loop E f a b c d) (case_loop E' f a b c d)).
  Proof.
    induction f as [|f (I1 & I2 & I3 & I4 & I5)]; [repeat split; intros; apply fuel_sim|].
    assert (DD : like_deco deco0 deco0) by (constructor; constructor).
    repeat split; intros; cbn [parse_field parse_if parse_block block_loop case_loop].
    - bind; [base|intros e ? <-]. destruct e; [go fail|]. bind; [apply docs_sim|intros _ _ _]. bind; [base|intros k ? <-].
      assert (ID : sim eq (let% d := decorators E f deco0 in field_rest E d) (let% d := decorators E' f deco0 in field_rest E' d))
        by (bind; [now apply decorators_sim|intros; now apply rest_sim]).
      destruct k; try exact ID; go ltac:(first [apply head_sim | apply I5 | apply I2]).
    - go ltac:(first [apply expression_sim | apply I3 | apply I2]).
    - go ltac:(apply I4).
    - go ltac:(first [apply I4 | apply I1]).
    - go ltac:(first [apply tail_sim | apply value_sim | apply I5 | apply I3 | apply I1]).
  Qed.
  Lemma block_sim f : sim eq (parse_block E f) (parse_block E' f). Proof. apply fields_sim. Qed.

  Lemma enum_loop_sim f : forall a b c, sim eq (enum_loop f a b c) (enum_loop f a b c).
  Proof. induction f; intros; cbn [enum_loop]; go ltac:(first [takes | apply IHf]). Qed.
  Lemma dup_sim s : sim eq (get (fun p => some (find_enum (p_enums p) s) || some (find_struct (p_structs p) s)))
    (get (fun p => some (find_enum (p_enums p) s) || some (find_struct (p_structs p) s))).
  Proof. apply get_sim. flat. Qed.
  Lemma dup_sim2 s : sim eq (get (fun p => some (find_struct (p_structs p) s) || some (find_enum (p_enums p) s)))
    (get (fun p => some (find_struct (p_structs p) s) || some (find_enum (p_enums p) s))).
  Proof. apply get_sim. flat. Qed.
  Lemma parse_enum_sim f : sim eq (parse_enum f) (parse_enum f).
  Proof. unfold parse_enum. go ltac:(first [apply dup_sim | apply enum_loop_sim | apply upd_sim; flat]). Qed.
  Lemma parse_struct_sim f : sim eq (parse_struct E f) (parse_struct E' f).
  Proof.
    unfold parse_struct. bind; [base|intros n n' M]. toks. bind; [base|intros _ _ _]. bind; [apply dup_sim2|intros b ? <-]. bind; [go fail|intros _ _ _].
    bind; [now apply get_sim|intros o o' P]. destruct P. cbn [p_unaligned p_bitmode p_bits p_bits_valid p_sname p_out p_structs].
    bind; [apply upd_sim; flat|intros _ _ _]. bind; [go ltac:(apply upd_sim; flat)|intros _ _ _]. bind; [apply block_sim|intros _ _ _].
    bind; [now apply get_sim|intros q q' Q]. destruct Q. cbn [p_unaligned p_bitmode p_bits p_bits_valid p_sname p_out p_structs].
    bind; [go fail|intros _ _ _]. apply upd_sim. flat.
  Qed.
  Lemma parse_packet_sim f : sim eq (parse_packet E f) (parse_packet E' f).
  Proof. unfold parse_packet. go ltac:(first [apply dup_sim2 | apply structs_sim | apply block_sim | apply upd_sim; flat]). Qed.

  Lemma packets_sim : sim eq (get p_packets) (get p_packets). Proof. apply get_sim. flat. Qed.
  Lemma read_sim q : match e_read E q, e_read E' q with
    | None, None => True | Some s, Some s' => exists ts ts', lex s = Some ts /\ lex s' = Some ts' /\ Forall2 alike ts ts' | _, _ => False end.
  Proof.
    destruct SE as (_ & _ & R). specialize (R q). destruct (e_read E q), (e_read E' q); try easy. destruct R as (ts & ts' & A & B & C).
    exists ts, ts'. repeat split; auto. now apply code_alike.
  Qed.
  Lemma top_sim f : sim eq (top_level E f) (top_level E' f) /\ sim eq (top_decorators E f) (top_decorators E' f) /\ sim eq (parse_import E f) (parse_import E' f).
  Proof.
    induction f as [|f (I1 & I2 & I3)]; [repeat split; intros; apply fuel_sim|].
    repeat split; cbn [top_level top_decorators parse_import].
    - go ltac:(first [apply I1 | apply I2 | apply parse_struct_sim | apply parse_enum_sim | apply parse_packet_sim | apply packets_sim | apply upd_sim; flat | apply get_sim; flat]).
    - go ltac:(first [takes | apply I2 | apply I3 | apply skip_sim | apply upd_sim; flat]).
    - bind; [base|intros _ _ _]. bind; [base|intros t t' T]. toks. bind; [base|intros _ _ _]. bind; [base|intros _ _ _]. destruct (256 <=? _); [base|].
      bind; [now apply get_sim|intros o o' P]. destruct P as [ts ts' c c' v v' a1 a2 a3 a4 a5 a6 a7 a8 a9 b1 b2 b3 b4 b5 b6 e e' w w' F C V]. cbv zeta. cbn [p_path p_imports p_depth p_toks p_cur p_prev].
      destruct SE as (_ & CE & _). rewrite <- CE. destruct (existsb _ _); [now apply ret_sim|].
      bind; [apply upd_sim; flat|intros _ _ _]. pose proof (read_sim (e_canon E (resolve_path a6 (ttext t)))) as R.
      destruct (e_read E _) as [s|], (e_read E' _) as [s'|]; try easy; [|base]. destruct R as (us & us' & -> & -> & U).
      bind; [apply upd_sim; flat|intros _ _ _]. bind; [base|intros _ _ _]. bind; [apply I1|intros _ _ _]. apply upd_sim. flat.
  Qed.

  Lemma compile_same f path : compile_file E f path = compile_file E' f path.
  Proof.
    unfold compile_file. cbv zeta. destruct (SE) as (_ & CE & _). rewrite <- CE. pose proof (read_sim (e_canon E path)) as R.
    destruct (e_read E _) as [s|], (e_read E' _) as [s'|]; try easy. destruct R as (ts & ts' & A & B & F). unfold parse_file. rewrite A, B.
    assert (T : sim eq (advance ;; top_level E f) (advance ;; top_level E' f)) by (bind; [base|intros _ _ _; apply top_sim]).
    specialize (T (parser0 (e_canon E path) ts) (parser0 (e_canon E path) ts')). unfold outcomes in T.
    assert (P : same_p (parser0 (e_canon E path) ts) (parser0 (e_canon E path) ts')) by (constructor; auto using alike_refl).
    specialize (T P). destruct ((advance ;; top_level E f) _) as [a q|u|], ((advance ;; top_level E' f) _) as [a' q'|u'|]; try easy; [|now subst].
    destruct T as (_ & Q). now destruct Q.
  Qed.
End Alike.

Lemma formatted_same which E : (forall p s, which p = true -> e_read E p = Some s -> tidy Code s = true) -> same_sources E (formatted which E).
Proof.
  intros T. repeat split. intros p. cbn [formatted e_read]. destruct (e_read E p) as [s|] eqn:R; [|exact Logic.I].
  destruct (which p) eqn:W.
  - destruct (format_code s (T p s W R)) as (o & ts & to & F & A & B & C). rewrite F. exists ts, to. auto.
  - destruct (lex_from_spec (S (length s)) s 0 1 ltac:(lia)) as (ts & L & _). exists ts, ts. auto.
Qed.
