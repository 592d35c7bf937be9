(** Where errors and definitions are: an invariant of the whole parser. *)
From Coq Require Import Strings.String Lia.
From Verif Require Import Base ModelFloat ModelVM ModelImage ModelText ModelNames ModelParse ModelSchema ModelDiag LemMono LemEnds.
Local Open Scope nat_scope.

Section Places.
Variable E : env.
Variables (path0 src0 : list N).
(** The files opened so far *)
Definition opened p : list (list N) := map cstr (p_imports p).
(** The tokens of the document, or of an imported file *)
Definition file_toks (L : list (list N)) (d : N) (path : list N) (all : list token) : Prop := exists text, lex text = Some all /\
  (if (d =? 0)%N then path = path0 /\ text = src0 else e_read E path = Some text /\ In (cstr path) L).
Definition some_file (L : list (list N)) (path text : list N) : Prop := path = path0 /\ text = src0 \/ e_read E path = Some text /\ In (cstr path) L.
Definition err_ok L (e : N * list N * token) : Prop := let '(d, path, t) := e in exists all, file_toks L d path all /\ In t all.
(** A name after its keyword *)
Definition named (e : bool) (t : token) (all : list token) : Prop := exists a kw b c, all = a ++ kw :: b ++ t :: c /\
  tk kw = (if e then TEnum else TStruct) /\ Forall (fun x => tk x = TError) b.
Definition site_ok L (s : site) : Prop := exists text all t, some_file L (site_path s) text /\ lex text = Some all /\
  named (site_enum s) t all /\ ttext t = site_name s /\ tline t = site_line s.
Definition log_ok L p : Prop := Forall (err_ok L) (p_errs p) /\ (p_err p = true <-> p_errs p <> []) /\ Forall (site_ok L) (p_sites p).
Record inv p : Prop := {
  i_toks : exists all, file_toks (opened p) (p_depth p) (p_path p) all /\ In (p_cur p) all /\ (exists a, all = a ++ p_toks p) /\
    (tk (p_cur p) = TEof \/ exists a, all = a ++ p_cur p :: p_toks p);
  i_ended : ended (p_toks p);
  i_log : log_ok (opened p) p }.
Lemma toks_mono L L' d path all : incl L L' -> file_toks L d path all -> file_toks L' d path all.
Proof. intros I (x & A & B). exists x. split; [exact A|]. destruct (_ =? _)%N; [exact B|]. destruct B; auto. Qed.
Lemma log_mono L L' p : incl L L' -> log_ok L p -> log_ok L' p.
Proof.
  intros I (A & B & C). split; [|split; [exact B|]].
  - eapply Forall_impl; [|exact A]. intros ((d & path) & t) (all & X & Y). exists all. split; [|exact Y]. eapply toks_mono; eauto.
  - eapply Forall_impl; [|exact C]. intros x (tx & all & t & [X|(X & Z)] & Y); exists tx, all, t; (split; [|exact Y]); unfold some_file; auto.
Qed.
Definition stays p q : Prop := p_path q = p_path p /\ p_depth q = p_depth p /\ incl (opened p) (opened q).
Lemma stays_refl p q : p_path q = p_path p -> p_depth q = p_depth p -> p_imports q = p_imports p -> stays p q.
Proof. intros A B C. split; [exact A|]. split; [exact B|]. unfold opened. rewrite C. apply incl_refl. Qed.
Lemma stays_trans p q r : stays p q -> stays q r -> stays p r.
Proof. intros (A & B & C) (A' & B' & C'). split; [congruence|]. split; [congruence|]. eapply incl_tran; eauto. Qed.
Definition iv {A} (m : par A) : Prop := forall p a q, m p = POk a q -> inv p -> inv q /\ stays p q.
Definition same7 p q : Prop := p_toks q = p_toks p /\ p_cur q = p_cur p /\ p_depth q = p_depth p /\ p_path q = p_path p /\
  p_errs q = p_errs p /\ p_err q = p_err p /\ p_sites q = p_sites p /\ p_imports q = p_imports p.
Lemma same7_inv p q : same7 p q -> inv p -> inv q /\ stays p q.
Proof.
  intros (A & B & C & D & F & G & H & J) I. split; [|now apply stays_refl]. destruct I as [T N L]. constructor; unfold opened; rewrite ?J.
  - now rewrite A, B, C, D.
  - now rewrite A.
  - unfold log_ok. now rewrite F, G, H.
Qed.
Lemma fr_ret {A} (a : A) : iv (ret a).
Proof. intros p b q X I. injection X as <- <-. split; [exact I|now apply stays_refl]. Qed.
Lemma fr_get {A} (f : pst -> A) : iv (get f).
Proof. intros p b q X I. injection X as <- <-. split; [exact I|now apply stays_refl]. Qed.
Lemma fr_upd f : (forall p, same7 p (f p)) -> iv (upd_p f).
Proof. intros F p b q X I. injection X as <- <-. now apply same7_inv. Qed.
Lemma fr_undef {A} u : iv (@undef A u). Proof. intros p a q X. discriminate. Qed.
Lemma fr_fuel {A} : iv (@no_fuel A). Proof. intros p a q X. discriminate. Qed.
Lemma fr_result {A} (r : result A) : iv (of_result r).
Proof. destruct r; [apply fr_ret|apply fr_undef]. Qed.
Lemma fr_bind {A B} (m : par A) (k : A -> par B) : iv m -> (forall a, iv (k a)) -> iv (pbind m k).
Proof.
  intros M K p b q X I. unfold pbind in X. destruct (m p) as [a r| |] eqn:EM; try discriminate.
  destruct (M _ _ _ EM I) as (J & P). destruct (K _ _ _ _ X J) as (J' & Q). split; [exact J'|eapply stays_trans; eauto].
Qed.
Lemma fr_when b m : iv m -> iv (when b m).
Proof. destruct b; [auto|intros _; apply fr_ret]. Qed.
Lemma log_more L p l : Forall (err_ok L) l -> l <> [] -> log_ok L p -> log_ok L (set_errs l p).
Proof.
  intros F N (A & B & C). split; [|split; [|exact C]]; cbn.
  - apply Forall_app. auto.
  - split; [|reflexivity]. intros _ X. apply N. now apply app_eq_nil in X.
Qed.
Lemma cur_err p : inv p -> err_ok (opened p) (err_at p (p_cur p)).
Proof. intros I. destruct (i_toks _ I) as (all & F & C & _). exists all. auto. Qed.
Lemma fr_error : iv error.
Proof.
  intros p b q X I. injection X as <- <-. split; [|now apply stays_refl]. destruct I as [T N L]. constructor; [exact T|exact N|].
  apply (log_more (opened p) p [err_at p (p_cur p)]); [|discriminate|exact L]. constructor; [|constructor]. apply cur_err. now constructor.
Qed.
(** advance: from any state whose tokens are those of the file *)
Lemma next_bad l : ended l -> forall b, exists bs t r, l = bs ++ t :: r /\ Forall (fun x => tk x = TError) bs /\ tk t <> TError /\ bad_tokens l = bs /\
  next_token l b = ((if kind_eq_dec (tk t) TEof then t :: r else r), Some t, match bs with [] => b | _ => true end).
Proof.
  induction l as [|x l IH]; intros D b; [destruct D as (a & e & D & _); destruct a; discriminate|].
  cbn [next_token bad_tokens]. destruct (kind_eq_dec (tk x) TError) as [X|X].
  - rewrite X. destruct (IH (ended_tail _ _ D ltac:(congruence)) true) as (bs & t & r & -> & F & N & BT & ->).
    exists (x :: bs), t, r. split; [reflexivity|]. split; [now constructor|]. split; [exact N|]. split; [now rewrite BT|]. destruct bs; reflexivity.
  - exists [], x, l. split; [reflexivity|]. split; [constructor|]. split; [exact X|].
    destruct (tk x); try contradiction; (split; reflexivity).
Qed.
Definition fresh p : Prop := exists all, file_toks (opened p) (p_depth p) (p_path p) all /\ (exists a, all = a ++ p_toks p) /\ ended (p_toks p) /\ log_ok (opened p) p.
Lemma fresh_advance p q a : advance p = POk a q -> fresh p -> inv q /\ stays p q.
Proof.
  intros X (all & FT & (pre & AL) & D & L). unfold advance in X. destruct (next_bad _ D false) as (bs & t & r & TE & F & N & BT & NT).
  rewrite NT in X. set (ts := if kind_eq_dec (tk t) TEof then t :: r else r) in *.
  set (p1 := set_tok ts t (p_cur p) p) in *.
  assert (T1 : exists all, file_toks (opened p) (p_depth p) (p_path p) all /\ In t all /\ (exists a, all = a ++ ts) /\ (tk t = TEof \/ exists a, all = a ++ t :: ts)).
  { exists all. split; [exact FT|]. rewrite AL, TE. split; [apply in_or_app; right; apply in_or_app; right; now left|]. unfold ts.
    destruct (kind_eq_dec (tk t) TEof) as [K|K].
    - split; [exists (pre ++ bs); now rewrite <- app_assoc|]. now left.
    - split; [exists (pre ++ bs ++ [t]); now rewrite <- !app_assoc|]. right. exists (pre ++ bs). now rewrite <- app_assoc. }
  assert (D1 : ended ts) by (apply (next_ok (p_toks p) false D) in NT; tauto).
  destruct bs as [|b0 bs].
  - injection X as <- <-. split; [|now apply stays_refl]. constructor; [exact T1|exact D1|exact L].
  - rewrite BT in X. injection X as <- <-. split; [|now apply stays_refl]. constructor; [exact T1|exact D1|].
    apply (log_more (opened p) p1 (rev (map (err_at p) (b0 :: bs)))); [|cbn [map rev]; intros Z; symmetry in Z; now apply app_cons_not_nil in Z|exact L].
    apply Forall_rev, Forall_map, Forall_forall. intros x I. exists all. split; [exact FT|]. rewrite AL, TE. apply in_or_app. right. apply in_or_app. now left.
Qed.
Lemma inv_fresh p : inv p -> fresh p.
Proof. intros [T N L]. destruct T as (all & A & _ & B & _). exists all. auto. Qed.
Lemma fr_advance : iv advance.
Proof. intros p a q X I. eapply fresh_advance; eauto using inv_fresh. Qed.
Lemma fr_at k : iv (at_kind k). Proof. apply fr_get. Qed.
Lemma fr_consume k : iv (consume k).
Proof. apply fr_bind; [apply fr_at|]. intros [|]; [apply fr_advance|apply fr_error]. Qed.
Ltac s7 := intros; repeat split.
Lemma fr_emit l : iv (emit l). Proof. apply fr_upd. s7. Qed.
Lemma fr_here : iv here. Proof. apply fr_get. Qed.
Lemma fr_write o l : iv (write_at o l). Proof. apply fr_upd. intros p. destruct (_ <? _)%N; s7. Qed.
Lemma fr_name s : iv (add_name s).
Proof. intros p a q X. unfold add_name in X. destruct (strtab_add _ _). injection X as <- <-. apply same7_inv. s7. Qed.
Lemma fr_number s : iv (number_i64 s). Proof. apply fr_result. Qed.

Ltac fr1 := lazymatch goal with
  | |- iv (ret _) => apply fr_ret
  | |- iv (get _) => apply fr_get
  | |- iv (undef _) => apply fr_undef
  | |- iv no_fuel => apply fr_fuel
  | |- iv (of_result _) => apply fr_result
  | |- iv (pbind _ _) => apply fr_bind; [|intro]
  | |- iv (when _ _) => apply fr_when
  | |- iv error => apply fr_error
  | |- iv advance => apply fr_advance
  | |- iv (at_kind _) => apply fr_at
  | |- iv (consume _) => apply fr_consume
  | |- iv (emit _) => apply fr_emit
  | |- iv here => apply fr_here
  | |- iv (write_at _ _) => apply fr_write
  | |- iv (add_name _) => apply fr_name
  | |- iv (number_i64 _) => apply fr_number
  | |- iv (upd_p _) => apply fr_upd; solve [s7]
  | |- iv (match ?x with _ => _ end) => destruct x
  | |- iv (let _ := _ in _) => cbv zeta
  | |- iv _ => match goal with H : _ |- _ => simple apply H end
  end.
Ltac fr := repeat fr1.
Lemma path_iv f : forall n, iv (path_loop f n).
Proof. induction f as [|f IH]; intros; cbn [path_loop]; fr. Qed.
Lemma load_iv f n : iv (load_name f n).
Proof. pose proof path_iv. unfold load_name. fr. Qed.
Lemma prec_iv f : (forall n, iv (parse_precedence E f n)) /\ (forall n t, iv (infix_loop E f n t)).
Proof.
  induction f as [|f (P & I)]; (split; intros; [|]); try apply fr_fuel.
  - pose proof load_iv. cbn [parse_precedence]. fr.
  - cbn [infix_loop]. fr.
Qed.
Lemma expr_iv f : iv (parse_expression E f).
Proof. apply prec_iv. Qed.
Lemma token_iv : iv take_number. Proof. unfold take_number. fr. Qed.
Lemma u32_iv : iv take_u32. Proof. pose proof token_iv. unfold take_u32. fr. Qed.
Lemma i64_iv : iv take_i64. Proof. pose proof token_iv. unfold take_i64. fr. Qed.
Lemma double_iv : iv (take_double E). Proof. pose proof token_iv. unfold take_double. fr. Qed.
Lemma poly_iv f : forall l, iv (poly_loop E f l).
Proof. pose proof double_iv. induction f as [|f IH]; intros; cbn [poly_loop]; fr. Qed.
Lemma spline_iv f : forall l, iv (spline_loop E f l).
Proof. pose proof double_iv. induction f as [|f IH]; intros; cbn [spline_loop]; fr. Qed.
Lemma skip_iv f : iv (skip_to_paren f).
Proof. induction f as [|f IH]; cbn [skip_to_paren]; fr. Qed.
Lemma pad_iv n : iv (add_pad n).
Proof. apply fr_upd; intros; cbn; repeat match goal with |- context [if ?b then _ else _] => destruct b end; s7. Qed.
Lemma bits_iv n : iv (add_bits n).
Proof.
  intros p a q. unfold add_bits. cbn. repeat match goal with |- context [if ?b then _ else _] => destruct b end; try discriminate;
    intros X; injection X as <- <-; apply same7_inv; s7.
Qed.
Lemma zero_iv : iv zero_bits.
Proof. apply fr_upd; intros; cbn; repeat match goal with |- context [if ?b then _ else _] => destruct b end; s7. Qed.
Lemma args_iv f t d : iv (deco_args E f t d).
Proof.
  pose proof poly_iv. pose proof spline_iv. pose proof skip_iv. pose proof expr_iv. pose proof u32_iv. pose proof i64_iv.
  pose proof double_iv. pose proof token_iv. pose proof pad_iv. pose proof load_iv. unfold deco_args. fr.
Qed.
Lemma decorator_iv f d : iv (decorator E f d).
Proof. pose proof args_iv. pose proof u32_iv. pose proof zero_iv. unfold decorator. fr. Qed.
Lemma decorators_iv f : forall d, iv (decorators E f d).
Proof. pose proof decorator_iv. induction f as [|f IH]; intros; cbn [decorators]; fr. Qed.
Lemma docs_iv f : iv (skip_docs f).
Proof. induction f as [|f IH]; cbn [skip_docs]; fr. Qed.
Lemma range_iv op a b : iv (emit_range_check E op a b).
Proof. unfold emit_range_check. fr. Qed.
Lemma shape_iv ty d : iv (field_shape ty d).
Proof. pose proof u32_iv. pose proof token_iv. unfold field_shape. fr. Qed.
Lemma const_iv ty d k v : iv (const_field E ty d k v).
Proof. pose proof range_iv. unfold const_field. fr. Qed.
Lemma basic_iv ty d w k : iv (basic_field E ty d w k).
Proof. pose proof range_iv. pose proof bits_iv. unfold basic_field. fr. Qed.
Lemma enum_field_iv d w k e : iv (enum_field E d w k e).
Proof. pose proof range_iv. unfold enum_field. fr. Qed.
Lemma string_iv d w k s : iv (string_field d w k s).
Proof. unfold string_field. fr. Qed.
Lemma struct_field_iv ty n d w k c : iv (struct_field ty n d w k c).
Proof.
  unfold struct_field. fr. intros p uu q.
  match goal with |- context [append_with_prefix ?a ?b ?c ?d ?e] => destruct (append_with_prefix a b c d e) as [[[ss oo]|]|] end; intros X; try discriminate;
    injection X as <- <-; apply same7_inv; s7.
Qed.
Lemma field_iv d : iv (field_rest E d).
Proof.
  pose proof shape_iv. pose proof const_iv. pose proof basic_iv. pose proof enum_field_iv. pose proof string_iv. pose proof struct_field_iv.
  unfold field_rest. fr; intros p uu q X. destruct (strtab_add _ _) as [fs i]. cbn in X. intros I.
  destruct (same7_inv p (set_struct (p_sname p) fs p) ltac:(s7) I) as (J & S1). destruct (_ =? _)%N; injection X as <- <-; [|now split].
  destruct (fr_error _ tt _ eq_refl J) as (J' & S2). now split.
Qed.
Lemma value_iv : iv case_value.
Proof. unfold case_value. fr. Qed.
Lemma patch_iv l t : iv (patch_jumps l t).
Proof. induction l as [|j l IH]; cbn [patch_jumps]; fr. Qed.
Lemma head_iv : iv switch_head.
Proof. unfold switch_head. fr. Qed.
Lemma tail_iv l c j d : iv (switch_tail l c j d).
Proof. pose proof patch_iv. unfold switch_tail. fr. Qed.
Lemma stmt_iv f : iv (parse_field E f) /\ iv (parse_if E f) /\ iv (parse_block E f) /\ iv (block_loop E f) /\
  forall l c j d, iv (case_loop E f l c j d).
Proof.
  induction f as [|f (A & B & C & D & F)]; (split; [|split; [|split; [|split]]]; intros); try apply fr_fuel.
  - pose proof docs_iv. pose proof decorators_iv. pose proof field_iv. pose proof head_iv. cbn [parse_field]. fr.
  - pose proof expr_iv. cbn [parse_if]. fr.
  - cbn [parse_block]. fr.
  - cbn [block_loop]. fr.
  - pose proof value_iv. pose proof tail_iv. cbn [case_loop]. fr.
Qed.
Lemma enum_loop_iv f : forall n v x, iv (enum_loop f n v x).
Proof. pose proof i64_iv. induction f as [|f IH]; intros; cbn [enum_loop]; fr. Qed.

(** ** Definitions *)
Definition ivg {A} (L : list (list N)) (path : list N) (m : par A) : Prop := forall p a q, m p = POk a q -> inv p -> p_path p = path -> incl L (opened p) -> inv q /\ stays p q.
Lemma iv_ivg {A} L path (m : par A) : iv m -> ivg L path m.
Proof. intros H p a q X I _ _. eapply H; eauto. Qed.
Lemma ivg_bind {A B} L path (m : par A) (k : A -> par B) : ivg L path m -> (forall a, ivg L path (k a)) -> ivg L path (pbind m k).
Proof.
  intros M K p b q X I P O. unfold pbind in X. destruct (m p) as [a r| |] eqn:EM; try discriminate.
  destruct (M _ _ _ EM I P O) as (J & Q). destruct (K _ _ _ _ X J ltac:(destruct Q; congruence) ltac:(eapply incl_tran; [exact O|apply Q])) as (J' & Q'). split; [exact J'|eapply stays_trans; eauto].
Qed.
Definition place L (e : bool) (t : token) (path : list N) : Prop := site_ok L {| site_enum := e; site_name := ttext t; site_line := tline t; site_path := path |}.
Lemma ivg_site L e t path g : (forall p, exists r, same7 p r /\ g p = add_site e t r) -> place L e t path -> ivg L path (upd_p g).
Proof.
  intros F O p a q X I P OL. injection X as <- <-. destruct (F p) as (r & F' & ->). destruct (same7_inv _ _ F' I) as ([T N LG] & S1 & S2 & S3). split; [|split; [exact S1|split; [exact S2|exact S3]]].
  constructor; [exact T|exact N|]. destruct LG as (A & B & C). split; [exact A|]. split; [exact B|]. cbn. apply Forall_app. split; [exact C|].
  constructor; [|constructor]. unfold place in O. rewrite S1, P. destruct O as (tx & all & t' & [X|(X & Z)] & Y); exists tx, all, t'; (split; [|exact Y]); unfold some_file; auto.
Qed.
Definition after (e : bool) p : Prop := place (opened p) e (p_cur p) (p_path p).
Lemma advance_after (e : bool) p a q : advance p = POk a q -> inv p -> tk (p_cur p) = (if e then TEnum else TStruct) -> after e q.
Proof.
  intros X I K. destruct (fr_advance _ _ _ X I) as (_ & PP & _ & OP). destruct (i_toks _ I) as (all & (text & LX & FT) & _ & _ & [Z|(pre & AL)]); [destruct e; congruence|].
  unfold advance in X. destruct (next_bad _ (i_ended _ I) false) as (bs & t & r & TE & F & N & BT & NT). rewrite NT in X.
  assert (Q : p_cur q = t) by (destruct bs; injection X as <- <-; reflexivity).
  unfold after, place. rewrite Q, PP. exists text, all, t. cbn. split; [unfold some_file; destruct (_ =? _)%N; [tauto|]; destruct FT; auto|]. split; [exact LX|]. split; [|auto].
  exists pre, (p_cur p), bs, r. rewrite AL, TE. auto.
Qed.
Definition ivd {A} (e : bool) (m : par A) : Prop := forall p a q, m p = POk a q -> inv p -> after e p -> inv q /\ stays p q.
Lemma ivd_name {A} e (k : token -> par A) : (forall L t path, place L e t path -> ivg L path (k t)) -> ivd e (let% name := get p_cur in k name).
Proof. intros K p a q X I O. eapply K; [exact O|exact X|exact I|reflexivity|apply incl_refl]. Qed.
Lemma enum_iv f : ivd true (parse_enum f).
Proof.
  pose proof enum_loop_iv. unfold parse_enum. apply ivd_name. intros L t path O.
  repeat (apply ivg_bind; [apply iv_ivg; fr|intro]). apply ivg_site with (e := true) (t := t); [intros p; eexists; split; [|reflexivity]; s7|exact O].
Qed.
Lemma fr_copy {A} (k : pst -> par A) : (forall p, iv (k p)) -> iv (pbind (get (fun p => p)) k).
Proof. intros K. apply fr_bind; [apply fr_get|exact K]. Qed.
Lemma struct_iv f : ivd false (parse_struct E f).
Proof.
  destruct (stmt_iv f) as (_ & _ & H & _). unfold parse_struct. apply ivd_name. intros L t path O.
  do 4 (apply ivg_bind; [apply iv_ivg; fr|intro]). apply ivg_bind; [apply ivg_site with (e := false) (t := t); [intros p; eexists; split; [|reflexivity]; s7|exact O]|intro]. apply iv_ivg. fr.
Qed.
Lemma packet_iv f : iv (parse_packet E f).
Proof. destruct (stmt_iv f) as (_ & _ & H & _). unfold parse_packet. fr. Qed.

(** ** Imports and the top level *)
Lemma def_iv {A} (e : bool) (m : par A) : ivd e m -> forall p a q, (advance ;; m) p = POk a q -> inv p -> tk (p_cur p) = (if e then TEnum else TStruct) -> inv q /\ stays p q.
Proof.
  intros M p a q X I K. unfold pbind in X. destruct (advance p) as [u r| |] eqn:EA; try discriminate.
  destruct (fr_advance _ _ _ EA I) as (J & P). destruct (M _ _ _ X J (advance_after _ _ _ _ EA I K)) as (J' & Q).
  split; [exact J'|eapply stays_trans; eauto].
Qed.
Lemma find_in t s : forall i j, strtab_find t s i = Some j -> In s (map cstr t).
Proof. induction t as [|x t IH]; intros i j; cbn; [discriminate|]. destruct (list_eq_dec _ _ _); [now left|]. intros X. right. eauto. Qed.
Lemma cstr_cstr l : cstr (cstr l) = cstr l.
Proof. induction l as [|c l IH]; cbn [cstr]; [reflexivity|]. destruct (c mod 256 =? 0)%N eqn:Z; cbn [cstr]; [reflexivity|]. rewrite N.mod_mod, Z, IH by lia. reflexivity. Qed.
Lemma added t s : incl (map cstr t) (map cstr (fst (strtab_add t s))) /\ In (cstr s) (map cstr (fst (strtab_add t s))).
Proof.
  unfold strtab_add. destruct (strtab_find t s 0) as [i|] eqn:F; cbn [fst].
  - split; [apply incl_refl|]. apply find_in in F. apply in_map_iff in F. destruct F as (x & <- & F). rewrite cstr_cstr. now apply in_map.
  - rewrite map_app. split; [apply incl_appl, incl_refl|]. apply in_or_app. right. now left.
Qed.
Lemma top_iv f : iv (top_level E f) /\ iv (top_decorators E f) /\ iv (parse_import E f).
Proof.
  induction f as [|f (A & B & C)]; (split; [|split]); try apply fr_fuel.
  - pose proof packet_iv. cbn [top_level]. apply fr_bind; [fr|intro t]. apply fr_bind; [fr|intro er]. destruct (_ || _); [fr|]. destruct (is_kind TDoc t); [fr|].
    apply fr_bind; [exact B|intros _]. intros p a q. unfold pbind at 1. unfold get at 1. cbn. intros X I. revert X.
    match goal with |- pbind ?m ?k p = _ -> _ => assert (M : forall a q, m p = POk a q -> inv q /\ stays p q) end.
    { intros a' q'. destruct (tk (p_cur p)) eqn:TK;
        try (match goal with |- ?m p = _ -> _ => assert (G : iv m) by fr; intros X; exact (G _ _ _ X I) end).
      - intros X. now apply (def_iv false _ (struct_iv f) _ _ _ X I).
      - intros X. now apply (def_iv true _ (enum_iv f) _ _ _ X I). }
    match goal with |- pbind ?m ?k p = _ -> _ => change (match m p with POk b r => k b r | PUb u => PUb u | PFuel => PFuel end = POk a q -> inv q /\ stays p q);
      destruct (m p) as [u r| |] eqn:EM; try discriminate end.
    destruct (M _ _ eq_refl) as (J & P). intros X. destruct (A _ _ _ X J) as (J' & Q). split; [exact J'|eapply stays_trans; eauto].
  - pose proof u32_iv. pose proof skip_iv. cbn [top_decorators]. fr.
  - cbn [parse_import]. do 3 (apply fr_bind; [fr|intro]). apply fr_bind; [fr|intro]. destruct (_ <=? _)%N; [fr|].
    intros p a4 q. unfold pbind at 1. unfold get at 1. cbv beta iota zeta. intros X I. revert X.
    set (full := e_canon E _). destruct (existsb _ _); [intros X; now apply (fr_ret tt p a4 q)|].
    unfold pbind at 1. unfold upd_p at 1. cbv beta iota.
    set (p1 := set_import _ _ _ p).
    assert (S1 : stays p p1 /\ In (cstr full) (opened p1)).
    { pose proof (added (p_imports p) full) as (AD1 & AD2). split; [|exact AD2]. split; [reflexivity|]. split; [reflexivity|exact AD1]. }
    destruct S1 as (S1 & IF).
    assert (I1 : inv p1).
    { destruct I as [T N LG]. destruct S1 as (_ & _ & IN). constructor; [|exact N|eapply log_mono; eauto; exact LG].
      destruct T as (all & T1 & T2). exists all. split; [eapply toks_mono; eauto|exact T2]. }
    destruct (e_read E full) as [src|] eqn:R.
    2: { intros X. destruct (fr_error _ _ _ X I1) as (J & Q). split; [exact J|eapply stays_trans; eauto]. }
    destruct (lex src) as [toks|] eqn:LX; [|discriminate].
    unfold pbind at 1. unfold upd_p at 1. cbv beta iota. set (p2 := set_import _ _ _ (set_tok _ _ _ p1)).
    unfold pbind at 1. destruct (advance p2) as [u r| |] eqn:EA; try discriminate.
    assert (F2 : fresh p2).
    { exists toks. split; [|split; [|split]].
      - exists src. split; [exact LX|]. change (p_depth p2) with (p_depth p + 1)%N. change (p_path p2) with full.
        destruct (N.eqb_spec (p_depth p + 1) 0); [lia|]. split; [exact R|exact IF].
      - exists []. reflexivity.
      - exact (lex_ended _ _ LX).
      - exact (i_log _ I1). }
    destruct (fresh_advance _ _ _ EA F2) as (I3 & _ & _ & O3). unfold pbind at 1. destruct (top_level E f r) as [u2 r2| |] eqn:ET; try discriminate.
    destruct (A _ _ _ ET I3) as (I4 & _ & _ & O4). intros X. injection X as <- <-.
    assert (OO : incl (opened p) (opened r2)) by (eapply incl_tran; [apply S1|]; eapply incl_tran; [exact O3|exact O4]).
    split; [|split; [reflexivity|split; [reflexivity|exact OO]]].
    constructor; [|exact (i_ended _ I)|exact (i_log _ I4)].
    destruct (i_toks _ I) as (all & T1 & T2). exists all. split; [eapply toks_mono; [exact OO|exact T1]|exact T2].
Qed.
Lemma analyse_ok fuel p : analyse E fuel path0 src0 = POk tt p -> log_ok (opened p) p.
Proof.
  unfold analyse. destruct (lex src0) as [toks|] eqn:LX; [|discriminate]. unfold pbind. destruct (advance _) as [u r| |] eqn:EA; try discriminate. intros X.
  assert (F : fresh (editor0 path0 toks)).
  { exists toks. split; [exists src0; split; [exact LX|now split]|]. split; [exists []; reflexivity|]. split; [exact (lex_ended _ _ LX)|].
    split; [constructor|]. split; [|constructor]. cbn. split; [discriminate|congruence]. }
  destruct (fresh_advance _ _ _ EA F) as (I & _). exact (i_log _ (proj1 (proj1 (top_iv fuel) _ _ _ X I))).
Qed.
End Places.
