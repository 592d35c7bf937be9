(** The list of imported files touches nothing but imports: the same parse with another list. *)
From Coq Require Import Strings.String Lia.
From Verif Require LemPlace.
From Verif Require Import Base ModelFloat ModelVM ModelImage ModelText ModelNames ModelParse ModelSchema ModelDiag SpecVM SpecText LemText LemLex PropText LemMono LemEnds LemStr.
Local Open Scope nat_scope.

Definition imp (l : list (list N)) (p : pst) : pst := set_import l (p_path p) (p_depth p) p.
Definition frame {A} (m : par A) : Prop := forall p l,
  match m p with
  | POk a q => p_imports q = p_imports p /\ m (imp l p) = POk a (imp l q)
  | PUb u => m (imp l p) = PUb u
  | PFuel => m (imp l p) = PFuel
  end.
Lemma fr_ret {A} (a : A) : frame (ret a).
Proof. split; reflexivity. Qed.
Lemma fr_get {A} (f : pst -> A) : (forall p l, f (imp l p) = f p) -> frame (get f).
Proof. intros F p l. cbn. split; [reflexivity|]. unfold get. now rewrite F. Qed.
Lemma fr_upd f : (forall p l, f (imp l p) = imp l (f p)) -> (forall p, p_imports (f p) = p_imports p) -> frame (upd_p f).
Proof. intros F G p l. cbn. split; [apply G|]. unfold upd_p. now rewrite F. Qed.
Lemma fr_undef {A} u : frame (@undef A u). Proof. intros p l. reflexivity. Qed.
Lemma fr_fuel {A} : frame (@no_fuel A). Proof. intros p l. reflexivity. Qed.
Lemma fr_result {A} (r : result A) : frame (of_result r).
Proof. destruct r; [apply fr_ret|apply fr_undef]. Qed.
Lemma fr_bind {A B} (m : par A) (k : A -> par B) : frame m -> (forall a, frame (k a)) -> frame (pbind m k).
Proof.
  intros M K p l. unfold pbind. specialize (M p l). destruct (m p) as [a q| |]; [|now rewrite M|now rewrite M].
  destruct M as (I & ->). specialize (K a q l). destruct (k a q); [|exact K|exact K]. destruct K as (J & ->). split; congruence.
Qed.
Lemma fr_when b m : frame m -> frame (when b m).
Proof. destruct b; [auto|intros _; apply fr_ret]. Qed.
Lemma fr_error : frame error.
Proof. apply fr_upd; reflexivity. Qed.
Lemma fr_advance : frame advance.
Proof. intros p l. unfold advance. cbn. destruct (next_token _ _) as [[ts t] b]. destruct b; split; reflexivity. Qed.
Lemma fr_at k : frame (at_kind k). Proof. now apply fr_get. Qed.
Lemma fr_consume k : frame (consume k).
Proof. apply fr_bind; [apply fr_at|]. intros [|]; [apply fr_advance|apply fr_error]. Qed.
Lemma fr_emit l : frame (emit l). Proof. apply fr_upd; reflexivity. Qed.
Lemma fr_here : frame here. Proof. now apply fr_get. Qed.
Lemma fr_write o l : frame (write_at o l). Proof. apply fr_upd; intros; cbn; destruct (_ <? _)%N; reflexivity. Qed.
Lemma fr_name s : frame (add_name s).
Proof. intros p l. unfold add_name. cbn. destruct (strtab_add _ _). split; reflexivity. Qed.
Lemma fr_number s : frame (number_i64 s). Proof. apply fr_result. Qed.

Ltac fr1 := lazymatch goal with
  | |- frame (ret _) => apply fr_ret
  | |- frame (get _) => apply fr_get; solve [intros; reflexivity]
  | |- frame (undef _) => apply fr_undef
  | |- frame no_fuel => apply fr_fuel
  | |- frame (of_result _) => apply fr_result
  | |- frame (pbind _ _) => apply fr_bind; [|intro]
  | |- frame (when _ _) => apply fr_when
  | |- frame error => apply fr_error
  | |- frame advance => apply fr_advance
  | |- frame (at_kind _) => apply fr_at
  | |- frame (consume _) => apply fr_consume
  | |- frame (emit _) => apply fr_emit
  | |- frame here => apply fr_here
  | |- frame (write_at _ _) => apply fr_write
  | |- frame (add_name _) => apply fr_name
  | |- frame (number_i64 _) => apply fr_number
  | |- frame (upd_p _) => apply fr_upd; solve [reflexivity|intros; reflexivity]
  | |- frame (match ?x with _ => _ end) => destruct x
  | |- frame (let _ := _ in _) => cbv zeta
  | |- frame _ => match goal with H : _ |- _ => simple apply H end
  end.
Ltac fr := repeat fr1.
Lemma path_frame f : forall n, frame (path_loop f n).
Proof. induction f as [|f IH]; intros; cbn [path_loop]; fr. Qed.
Lemma load_frame f n : frame (load_name f n).
Proof. pose proof path_frame. unfold load_name. fr. Qed.
Lemma prec_frame E f : (forall n, frame (parse_precedence E f n)) /\ (forall n t, frame (infix_loop E f n t)).
Proof.
  induction f as [|f (P & I)]; (split; intros; [|]); try apply fr_fuel.
  - pose proof load_frame. cbn [parse_precedence]. fr.
  - cbn [infix_loop]. fr.
Qed.
Lemma expr_frame E f : frame (parse_expression E f).
Proof. apply prec_frame. Qed.
Lemma token_frame : frame take_number. Proof. unfold take_number. fr. Qed.
Lemma u32_frame : frame take_u32. Proof. pose proof token_frame. unfold take_u32. fr. Qed.
Lemma i64_frame : frame take_i64. Proof. pose proof token_frame. unfold take_i64. fr. Qed.
Lemma double_frame E : frame (take_double E). Proof. pose proof token_frame. unfold take_double. fr. Qed.
Lemma poly_frame E f : forall l, frame (poly_loop E f l).
Proof. pose proof (double_frame E). induction f as [|f IH]; intros; cbn [poly_loop]; fr. Qed.
Lemma spline_frame E f : forall l, frame (spline_loop E f l).
Proof. pose proof (double_frame E). induction f as [|f IH]; intros; cbn [spline_loop]; fr. Qed.
Lemma skip_frame f : frame (skip_to_paren f).
Proof. induction f as [|f IH]; cbn [skip_to_paren]; fr. Qed.
Lemma pad_frame n : frame (add_pad n).
Proof. apply fr_upd; intros; cbn; repeat match goal with |- context [if ?b then _ else _] => destruct b end; reflexivity. Qed.
Lemma bits_frame n : frame (add_bits n).
Proof. intros p l. unfold add_bits. cbn. repeat match goal with |- context [if ?b then _ else _] => destruct b end; try reflexivity; split; reflexivity. Qed.
Lemma zero_frame : frame zero_bits.
Proof. apply fr_upd; intros; cbn; repeat match goal with |- context [if ?b then _ else _] => destruct b end; reflexivity. Qed.
Lemma args_frame E f t d : frame (deco_args E f t d).
Proof.
  pose proof (poly_frame E). pose proof (spline_frame E). pose proof skip_frame. pose proof (expr_frame E). pose proof u32_frame. pose proof i64_frame.
  pose proof (double_frame E). pose proof token_frame. pose proof pad_frame. pose proof load_frame. unfold deco_args. fr.
Qed.
Lemma decorator_frame E f d : frame (decorator E f d).
Proof. pose proof (args_frame E). pose proof u32_frame. pose proof zero_frame. unfold decorator. fr. Qed.
Lemma decorators_frame E f : forall d, frame (decorators E f d).
Proof. pose proof (decorator_frame E). induction f as [|f IH]; intros; cbn [decorators]; fr. Qed.
Lemma docs_frame f : frame (skip_docs f).
Proof. induction f as [|f IH]; cbn [skip_docs]; fr. Qed.
Lemma range_frame E op a b : frame (emit_range_check E op a b).
Proof. unfold emit_range_check. fr. Qed.
Lemma shape_frame ty d : frame (field_shape ty d).
Proof. pose proof u32_frame. pose proof token_frame. unfold field_shape. fr. Qed.
Lemma const_frame E ty d k v : frame (const_field E ty d k v).
Proof. pose proof (range_frame E). unfold const_field. fr. Qed.
Lemma basic_frame E ty d w k : frame (basic_field E ty d w k).
Proof. pose proof (range_frame E). pose proof bits_frame. unfold basic_field. fr. Qed.
Lemma enum_field_frame E d w k e : frame (enum_field E d w k e).
Proof. pose proof (range_frame E). unfold enum_field. fr. Qed.
Lemma string_frame d w k s : frame (string_field d w k s).
Proof. unfold string_field. fr. Qed.
Lemma struct_field_frame ty n d w k c : frame (struct_field ty n d w k c).
Proof.
  unfold struct_field. fr. intros p l. change (p_strs (imp l p)) with (p_strs p). change (p_out (imp l p)) with (p_out p).
  match goal with |- context [append_with_prefix ?a ?b ?c ?d ?e] => destruct (append_with_prefix a b c d e) as [[[ss oo]|]|] end; [split; reflexivity|reflexivity|reflexivity].
Qed.
Lemma field_frame E d : frame (field_rest E d).
Proof.
  pose proof shape_frame. pose proof (const_frame E). pose proof (basic_frame E). pose proof (enum_field_frame E). pose proof string_frame. pose proof struct_field_frame.
  unfold field_rest. fr. intros p l. cbn. destruct (strtab_add _ _) as [fs i]. destruct (_ =? _)%N; split; reflexivity.
Qed.
Lemma value_frame : frame case_value.
Proof. unfold case_value. fr. Qed.
Lemma patch_frame l t : frame (patch_jumps l t).
Proof. induction l as [|j l IH]; cbn [patch_jumps]; fr. Qed.
Lemma head_frame : frame switch_head.
Proof. unfold switch_head. fr. Qed.
Lemma tail_frame l c j d : frame (switch_tail l c j d).
Proof. pose proof patch_frame. unfold switch_tail. fr. Qed.
Lemma stmt_frame E f : frame (parse_field E f) /\ frame (parse_if E f) /\ frame (parse_block E f) /\ frame (block_loop E f) /\
  forall l c j d, frame (case_loop E f l c j d).
Proof.
  induction f as [|f (A & B & C & D & F)]; (split; [|split; [|split; [|split]]]; intros); try apply fr_fuel.
  - pose proof docs_frame. pose proof (decorators_frame E). pose proof (field_frame E). pose proof head_frame. cbn [parse_field]. fr.
  - pose proof (expr_frame E). cbn [parse_if]. fr.
  - cbn [parse_block]. fr.
  - cbn [block_loop]. fr.
  - pose proof value_frame. pose proof tail_frame. cbn [case_loop]. fr.
Qed.
Lemma enum_loop_frame f : forall n v x, frame (enum_loop f n v x).
Proof. pose proof i64_frame. induction f as [|f IH]; intros; cbn [enum_loop]; fr. Qed.
Lemma enum_frame f : frame (parse_enum f).
Proof. pose proof enum_loop_frame. unfold parse_enum. fr. Qed.

(** A copy of the state is taken *)
Lemma fr_copy {A} (k : pst -> par A) : (forall p, frame (k p)) -> (forall p l, k (imp l p) = k p) -> frame (pbind (get (fun p => p)) k).
Proof. intros K C p l. unfold pbind, get. rewrite C. apply K. Qed.
Lemma struct_frame E f : frame (parse_struct E f).
Proof.
  destruct (stmt_frame E f) as (_ & _ & H & _). unfold parse_struct. do 4 (apply fr_bind; [fr|intro]). apply fr_copy; [|reflexivity].
  intro old. do 3 (apply fr_bind; [fr|intro]). apply fr_copy; [|reflexivity]. intro q. fr.
Qed.
Lemma packet_frame E f : frame (parse_packet E f).
Proof. destruct (stmt_frame E f) as (_ & _ & H & _). unfold parse_packet. fr. Qed.

(** ** Imports: one more file in the list, as long as it is not asked for *)
Section Extra.
Variable x : list N.
Definition extra (p : pst) : pst := imp (x :: p_imports p) p.
Definition follow {A} (m : par A) : Prop := forall q a q', m q = POk a q' ->
  incl (p_imports q) (p_imports q') /\ (~ In x (map cstr (p_imports q')) -> m (extra q) = POk a (extra q')).
Lemma fo_frame {A} (m : par A) : frame m -> follow m.
Proof.
  intros F q a q' X. specialize (F q (x :: p_imports q)). rewrite X in F. destruct F as (I & Y).
  split; [rewrite I; apply incl_refl|]. intros _. unfold extra. now rewrite I.
Qed.
Lemma fo_bind {A B} (m : par A) (k : A -> par B) : follow m -> (forall a, follow (k a)) -> follow (pbind m k).
Proof.
  intros M K q b q' X. unfold pbind in X |- *. destruct (m q) as [a r| |] eqn:EM; try discriminate.
  destruct (M _ _ _ EM) as (I & G). destruct (K _ _ _ _ X) as (J & H). split; [eapply incl_tran; eauto|].
  intros NI. rewrite G; [now apply H|]. intro Y. apply NI. apply in_map_iff in Y as (y & Y1 & Y2). apply in_map_iff. exists y. auto.
Qed.
Lemma fo_when b m : follow m -> follow (when b m).
Proof. destruct b; [auto|intros _; apply fo_frame, fr_ret]. Qed.
Lemma fo_copy {A} (k : pst -> par A) : (forall p, follow (k p)) -> (forall p, k (extra p) = k p) -> follow (pbind (get (fun p => p)) k).
Proof. intros K C q a q' X. unfold pbind, get in X |- *. rewrite C. now apply K. Qed.

Hypothesis CX : cstr x = x.
Lemma find_shift : forall l s i j, (match strtab_find l s i with Some _ => true | None => false end) = match strtab_find l s j with Some _ => true | None => false end.
Proof. induction l as [|y l IH]; intros s i j; cbn [strtab_find]; [reflexivity|]. destruct (list_eq_dec _ _ _); auto. Qed.
Lemma strtab_extra l s : s <> x -> fst (strtab_add (x :: l) s) = x :: fst (strtab_add l s).
Proof.
  intros N. unfold strtab_add. cbn [strtab_find]. rewrite CX. destruct (list_eq_dec N.eq_dec x s) as [->|_]; [contradiction|].
  pose proof (find_shift l s (0 + 1) 0) as S. destruct (strtab_find l s (0 + 1)), (strtab_find l s 0); try discriminate; reflexivity.
Qed.
Lemma strtab_incl l s : incl l (fst (strtab_add l s)).
Proof. unfold strtab_add. destruct (strtab_find l s 0); [apply incl_refl|]. cbn. intros y Y. apply in_or_app. now left. Qed.
Lemma find_in : forall l s i, strtab_find l s i <> None -> In s (map cstr l).
Proof. induction l as [|y l IH]; intros s i; cbn [strtab_find map]; [congruence|]. destruct (list_eq_dec _ _ _) as [E|]; [left; exact E|right; eauto]. Qed.
Lemma strtab_in l s : cstr s = s -> In s (map cstr (fst (strtab_add l s))).
Proof.
  intros C. unfold strtab_add. destruct (strtab_find l s 0) eqn:F; cbn [fst].
  - apply (find_in l s 0). congruence.
  - rewrite map_app. apply in_or_app. right. left. exact C.
Qed.

Ltac fo1 := lazymatch goal with
  | |- follow (pbind _ _) => apply fo_bind; [|intro]
  | |- follow (when _ _) => apply fo_when
  | |- follow (match ?x with _ => _ end) => destruct x
  | |- follow _ => first [match goal with H : follow _ |- _ => exact H end | apply fo_frame; solve [fr]]
  end.
Lemma fo_top E f : (forall p, cstr (e_canon E p) = e_canon E p) -> follow (top_level E f) /\ follow (top_decorators E f) /\ follow (parse_import E f).
Proof.
  intros CC. induction f as [|f (A & B & C)]; (split; [|split]); try apply fo_frame, fr_fuel.
  - pose proof (struct_frame E). pose proof enum_frame. pose proof (packet_frame E). cbn [top_level]. repeat fo1.
  - pose proof skip_frame. pose proof u32_frame. cbn [top_decorators]. repeat fo1.
  - cbn [parse_import]. do 4 (apply fo_bind; [fo1|intro]). destruct (256 <=? _)%N; [apply fo_frame, fr_error|].
    intros q b q' X. unfold pbind at 1 in X. unfold get at 1 in X. unfold pbind at 1. unfold get at 1.
    set (full := e_canon E _) in X. change (e_canon E _) with full. assert (CF : cstr full = full) by apply CC. clearbody full.
    destruct (existsb (same_text full) (p_imports q)) eqn:EX.
    + injection X as <- <-. split; [apply incl_refl|]. intros _. cbn [extra imp p_imports set_import existsb]. rewrite EX, orb_true_r. reflexivity.
    + unfold pbind at 1, upd_p at 1 in X.
      match type of X with ?m ?s = _ => set (rest := m) in X; set (q1 := s) in X end.
      assert (K : follow rest).
      { subst rest. cbv beta. destruct (e_read E full) as [src|]; [|apply fo_frame, fr_error]. destruct (lex src) as [toks|]; [|apply fo_frame, fr_fuel].
        apply fo_bind; [apply fo_frame, fr_upd; reflexivity|intro]. apply fo_bind; [apply fo_frame, fr_advance|intro].
        apply fo_bind; [exact A|intro]. apply fo_frame, fr_upd; reflexivity. }
      destruct (K _ _ _ X) as (I & G). assert (J : incl (p_imports q) (p_imports q1)) by apply strtab_incl.
      split; [eapply incl_tran; eauto|]. intros NI.
      assert (NF : full <> x).
      { intros ->. apply NI. assert (Y : In x (map cstr (p_imports q1))) by (apply strtab_in; exact CF).
        apply in_map_iff in Y as (y & Y1 & Y2). apply in_map_iff. exists y. auto. }
      cbn [extra imp p_imports set_import existsb].
      assert (same_text full x = false) as -> by (unfold same_text; destruct (list_eq_dec _ _ _); congruence). cbn [orb]. rewrite EX.
      unfold pbind at 1, upd_p at 1. rewrite strtab_extra by exact NF.
      change (rest (extra q1) = POk b (extra q')). now apply G.
Qed.
End Extra.

(** ** The two parsers on one file *)
Lemma analyse_follow E f path src a q : cstr path = path -> (forall p, cstr (e_canon E p) = e_canon E p) ->
  analyse E f path src = POk a q -> ~ In path (map cstr (p_imports q)) -> parse_file E f path src = POk a (extra path q).
Proof.
  intros CX CC. unfold analyse, parse_file. destruct (lex src) as [ts|]; [|discriminate]. intros X NI.
  assert (F : follow path (advance ;; top_level E f)) by (apply fo_bind; [apply fo_frame, fr_advance|intro; now apply fo_top]).
  destruct (F _ _ _ X) as (_ & G). exact (G NI).
Qed.
Lemma agree_file E f in_path src errs opened : (forall p, text (e_canon E p)) ->
  e_read E (e_canon E in_path) = Some src -> diagnose E f (e_canon E in_path) src = Shown errs opened -> ~ In (e_canon E in_path) opened ->
  match errs with [] => exists im, compile_file E f in_path = CImage im | _ :: _ => compile_file E f in_path = CRefused end.
Proof.
  intros CT R D NI. unfold diagnose in D. destruct (analyse _ _ _ _) as [[] q| |] eqn:A; try discriminate. injection D as <- <-.
  pose proof (LemPlace.diagnostics_nil _ _ _ _ _ A) as NIL.
  assert (CC : forall p, cstr (e_canon E p) = e_canon E p) by (intros p; apply cstr_text, CT).
  apply analyse_follow in A; auto. unfold compile_file. cbv zeta. rewrite R, A. cbn [p_err extra imp set_import p_strs p_out]. destruct (p_err q).
  { destruct (diagnostics E src q); [|reflexivity]. destruct NIL as (NIL & _). now specialize (NIL eq_refl). }
  rewrite (proj2 NIL eq_refl).
  pose proof (optimize_some (p_strs q) (p_out q)). destruct (optimize_strings _ _) as [(s & b)|]; [eauto|contradiction].
Qed.
Lemma analyse_ends E files path src : (forall q, text (e_canon E q)) -> (forall q, e_read E q <> None -> In q files) ->
  exists n, forall fuel, n <= fuel -> diagnose E fuel path src <> SFuel.
Proof.
  intros CT FI. assert (LX : forall src, lex src <> None) by (intros s; destruct (C38_tokens s) as (ts & -> & _); discriminate).
  destruct (sizes E files LX) as (size & SZ). destruct (lex src) as [ts|] eqn:LS; [|destruct (LX _ LS)].
  set (s2 := size + length ts).
  assert (RD : forall q src, e_read E q = Some src -> In q files /\ forall ts, lex src = Some ts -> length ts <= s2).
  { intros q s R. assert (J : In q files) by (apply FI; congruence). split; [exact J|]. intros t T. specialize (SZ _ _ J R _ T). unfold s2. lia. }
  exists (4 * s2 + 10 + length files * (4 * s2 + 20)). intros fuel L. unfold diagnose, analyse. rewrite LS.
  destruct (LemEnds.start_ok files (editor0 path ts) (lex_ended _ _ LS)) as (q & A & I1 & L1 & M1 & _); [constructor|].
  cbn [editor0 p_toks] in L1. unfold pbind. rewrite A. destruct (LemEnds.top E files CT s2 RD LX fuel) as (TL & _).
  assert (U : LemEnds.unread files (p_imports q) <= length files) by apply filter_len.
  assert (O : LemEnds.ok files q LemEnds.any (top_level E fuel q)).
  { apply TL; [auto|lia|]. right. unfold need. unfold s2 in *. nia. }
  destruct (top_level E fuel q); [discriminate|discriminate|exact (fun _ => O)].
Qed.
Lemma diagnose_mono E f g path src : f <= g -> diagnose E f path src <> SFuel -> diagnose E g path src = diagnose E f path src.
Proof.
  intros L. unfold diagnose, analyse. destruct (lex src) as [ts|]; [|intros X; now destruct X].
  pose proof (agree_bind advance advance _ _ (agree_refl _) (fun _ => proj1 (top_mono E f g L)) (editor0 path ts)) as [-> | ->];
    [intros X; now destruct X|reflexivity].
Qed.
