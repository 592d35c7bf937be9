(** What the compiler's parser accepts: decorators and fields. *)
From Coq Require Import Strings.String Lia ZifyBool ZifyN ZifyNat.
From Verif Require Import Base SpecBytes LemBase ModelFloat SpecVM ModelVM ModelImage ModelText SpecText LemText ModelNames ModelParse ModelSchema SpecParse SpecPacket SpecMessage SpecSource
  LemStr LemParse LemSource LemCompile LemErr SpecGrammar LemGrammar.
Ltac Zify.zify_post_hook ::= Z.div_mod_to_equations.

(** ** Numbers *)
Lemma number_reads : reads take_number (fun t ws => ws = [num (ttext t)]).
Proof. intros p a q H E G. unfold take_number in H. bnd H. bnd H. con M. prim H. split; [auto|]. split; [auto|]. chain. reflexivity. Qed.
Lemma u32_reads : reads take_u32 (fun v ws => exists s, ws = [num s] /\ v = parse_number_u32 s).
Proof. intros p a q H E G. unfold take_u32 in H. bnd H. sub M number_reads. prim H. split; [auto|]. split; [auto|]. chain. rewrite app_nil_r. eauto. Qed.
Lemma i64_reads : reads take_i64 (fun z ws => exists s, ws = [num s] /\ parse_number_i64 s = Ok z).
Proof. intros p a q H E G. unfold take_i64 in H. bnd H. sub M number_reads. prim H. split; [auto|]. split; [auto|]. chain. rewrite app_nil_r. eauto. Qed.
Lemma double_reads E : reads (take_double E) (fun v ws => exists s, ws = [num s]).
Proof. intros p a q H E0 G. unfold take_double in H. bnd H. sub M number_reads. prim H. split; [auto|]. split; [auto|]. chain. rewrite app_nil_r. eauto. Qed.
Lemma commas_cons n l : l <> [] -> commas (n :: l) = num n :: mark TComma :: commas l.
Proof. destruct l; [congruence|reflexivity]. Qed.
Lemma poly_reads E f : forall cs, reads (poly_loop E f cs) (fun cs' ws => exists l, l <> [] /\ ws = commas l /\ lenN cs + lenN l <= 16).
Proof.
  induction f as [|f IH]; intros cs p a q H E0 G; [discriminate|]. cbn [poly_loop] in H. bnd H. bnd H. destruct (is_kind TNumber (p_cur p)) eqn:K.
  2:{ bnd M. con M0. apply is_kind_iff in K0. congruence. }
  bnd M. advk M0 K. destruct (lenN cs <? 16) eqn:L; [|bnd M]. prim M. bnd H. destruct (is_kind TComma _) eqn:KC.
  - bnd H. advk M KC. sub H (IH _). destruct R as (l & NL & -> & LL). split; [auto|]. split; [congruence|]. chain. exists (ttext (p_cur p) :: l). split; [discriminate|].
    rewrite commas_cons by auto. rewrite app_nil_r. split; [reflexivity|]. rewrite lenN_app in LL. rewrite lenN_cons. change (lenN [parse_number_double E (ttext (p_cur p))]) with 1 in LL. lia.
  - prim H. split; [auto|]. split; [congruence|]. chain. exists [ttext (p_cur p)]. split; [discriminate|]. split; [reflexivity|]. change (lenN [ttext (p_cur p)]) with 1. lia.
Qed.
Lemma spline_reads E f : forall cs, reads (spline_loop E f cs) (fun cs' ws => exists l, l <> [] /\ ws = commas (flat_map (fun p => [fst p; snd p]) l) /\ lenN cs + lenN l <= 16).
Proof.
  induction f as [|f IH]; intros cs p a q H E0 G; [discriminate|]. cbn [spline_loop] in H. bnd H. bnd H. destruct (is_kind TNumber (p_cur p)) eqn:K.
  2:{ bnd M. con M0. apply is_kind_iff in K0. congruence. }
  bnd M. advk M0 K. destruct (lenN cs <? 16) eqn:L; [|bnd M]. bnd M. con M0. bnd M. sub M0 (double_reads E). destruct R as (y & ->). prim M. bnd H. destruct (is_kind TComma (p_cur _)) eqn:KC.
  - bnd H. advk M KC. sub H (IH _). destruct R as (l & NL & -> & LL). split; [auto|]. split; [congruence|]. chain. exists ((ttext (p_cur p), y) :: l). split; [discriminate|].
    cbn [flat_map app fst snd]. rewrite commas_cons by discriminate. rewrite commas_cons by (destruct l; [congruence|discriminate]). rewrite app_nil_r. split; [reflexivity|].
    rewrite lenN_app in LL. rewrite lenN_cons. match type of LL with context [lenN [?x]] => change (lenN [x]) with 1 in LL end. lia.
  - prim H. split; [auto|]. split; [congruence|]. chain. exists [(ttext (p_cur p), y)]. split; [discriminate|]. split; [reflexivity|]. match goal with |- context [lenN [?x]] => change (lenN [x]) with 1 end. lia.
Qed.
Lemma skip_reads f : reads (skip_to_paren f) (fun _ ws => Forall (fun w => ~ In (fst w) [TRparen; TEof; TError]) ws).
Proof.
  induction f as [|f IH]; intros p a q H E0 G; [discriminate|]. cbn [skip_to_paren] in H. bnd H. destruct (is_kind TRparen (p_cur p) || is_kind TEof (p_cur p)) eqn:K.
  - prim H. split; [auto|]. split; [auto|]. chain. constructor.
  - apply orb_false_iff in K as (K1 & K2). bnd H. pose proof G as (_ & _ & NE & _). adv M. rewrite K2 in SS. sub H IH. split; [auto|]. split; [congruence|]. chain. rewrite app_nil_r.
    cbn [app]. constructor; [|auto]. unfold shown. cbn [fst]. intros [X|[X|[X|[]]]]; symmetry in X; [apply is_kind_iff in X; congruence|apply is_kind_iff in X; congruence|contradiction].
Qed.

(** ** Decorators *)
Definition means (ds : list deco) (d : ModelSchema.deco) : Prop :=
  match constant_of ds with Some n => exists z, parse_number_i64 n = Ok z /\ d_const d = Some (ofZ 8 z) | None => d_const d = None end /\
  option_map (fun x : token * token => (ttext (fst x), ttext (snd x))) (d_range d) = limits_of ds /\
  d_crc d = option_map parse_number_u32 (crc_of ds) /\
  has_trans d = existsb transformed ds /\
  d_alone d = existsb standing ds /\
  some (d_fixed d) || some (d_count d) = existsb sized ds /\
  d_expr d = existsb formula ds.
Lemma latest_snoc {A} (f : deco -> option A) l x : latest f (l ++ [x]) = match f x with Some a => Some a | None => latest f l end.
Proof. unfold latest. now rewrite fold_left_app. Qed.
Lemma means_none : means [] deco0. Proof. repeat split. Qed.
Lemma keyword_text t s : match_keyword t s = true -> tk t = TIdentifier /\ ttext t = chars s.
Proof. unfold match_keyword. intros H. apply andb_true_iff in H as (A & B). now rewrite <- is_kind_iff, <- same_text_spec. Qed.
Ltac named := match goal with H : match_keyword ?t ?s = true |- _ => let X := fresh "KW" in apply keyword_text in H as (_ & X) end.
(** [d'] is [d] with the decorator [x] *)
Ltac snoc := unfold means, constant_of, limits_of, crc_of in *; rewrite !latest_snoc, !existsb_app; cbn.
Lemma args_reads E f t d : reads (deco_args E f t d) (fun d' ws => exists x, deco_read x ([mark TAt; name (ttext t); mark TLparen] ++ ws ++ [mark TRparen]) /\
  forall ds, means ds d -> means (ds ++ [x]) d').
Proof.
  intros p a q H E0 G. unfold deco_args in H.
  assert (NU : forall s n d', In s numbers -> ttext t = chars s -> (forall ds, means ds d -> means (ds ++ [Number s n]) d') ->
    exists x, deco_read x ([mark TAt; name (ttext t); mark TLparen] ++ [num n] ++ [mark TRparen]) /\ forall ds, means ds d -> means (ds ++ [x]) d').
  { intros s n d' IN EQ ME. exists (Number s n). rewrite EQ. split; [now apply dr_number|exact ME]. }
  destruct (match_keyword t "count" || match_keyword t "len") eqn:NM.
  { assert (exists s, In s sizes /\ ttext t = chars s) as (s & IS & TS).
    { apply orb_true_iff in NM as [NM|NM]; apply keyword_text in NM as (_ & NM); eexists; (split; [|exact NM]); cbn; auto. }
    bnd H. destruct (tk (p_cur p)) eqn:KC; try (bnd H; fail).
    - bnd H. advk M KC. bnd H. calm_step M. prim H. split; [auto|]. split; [congruence|]. chain. exists (Count (ttext (p_cur p))). rewrite TS. split; [now apply dr_count|].
      intros ds ME. snoc. destruct ME as (Z1 & Z2 & Z3 & Z4 & Z5 & Z6 & Z7). rewrite !orb_false_r, !orb_true_r. tauto.
    - bnd H. advk M KC. prim H. split; [auto|]. split; [congruence|]. chain. apply (NU s); [unfold numbers; apply in_or_app; auto|auto|].
      intros ds ME. snoc. destruct ME as (Z1 & Z2 & Z3 & Z4 & Z5 & Z6 & Z7).
      assert (SS2 : s = "count"%string \/ s = "len"%string) by (destruct IS as [IS|[IS|[]]]; auto). destruct SS2 as [-> | ->]; cbn; rewrite !orb_false_r, ?orb_true_r; tauto. }
  clear NM. destruct (match_keyword t "const" || match_keyword t "match") eqn:NM.
  { assert (exists s, In s const_words /\ ttext t = chars s) as (s & IS & TS).
    { apply orb_true_iff in NM as [NM|NM]; apply keyword_text in NM as (_ & NM); eexists; (split; [|exact NM]); cbn; auto. }
    bnd H. sub M i64_reads. destruct R as (n & -> & PN). prim H. split; [auto|]. split; [congruence|]. chain. apply (NU s); [unfold numbers; apply in_or_app; right; apply in_or_app; auto|auto|].
    intros ds ME. snoc. destruct ME as (Z1 & Z2 & Z3 & Z4 & Z5 & Z6 & Z7).
    assert (SS2 : s = "const"%string \/ s = "match"%string) by (destruct IS as [IS|[IS|[]]]; auto). destruct SS2 as [-> | ->]; cbn; rewrite !orb_false_r; (split; [eauto|tauto]). }
  clear NM. destruct (match_keyword t "pad") eqn:NM.
  { named. bnd H. sub M u32_reads. destruct R as (n & -> & PN). bnd H. calm_step M. bnd H.
    assert (SP : still r0 r1) by (injection M as _ <-; destruct (_ && _); repeat split). clear M. calm_step SP. prim H. split; [auto|]. split; [congruence|]. chain.
    apply (NU "pad"%string); [cbn; tauto|auto|]. intros ds ME. snoc. destruct ME as (Z1 & Z2 & Z3 & Z4 & Z5 & Z6 & Z7). rewrite !orb_false_r, !orb_true_r. tauto. }
  clear NM. destruct (match_keyword t "range") eqn:NM.
  { named. bnd H. sub M number_reads. bnd H. con M. bnd H. sub M number_reads. prim H. subst w w0. split; [auto|]. split; [congruence|]. chain. eexists. split; [rewrite KW; apply dr_limits|].
    intros ds ME. snoc. destruct ME as (Z1 & Z2 & Z3 & Z4 & Z5 & Z6 & Z7). rewrite !orb_false_r. tauto. }
  clear NM. destruct (match_keyword t "crc") eqn:NM.
  { named. bnd H. sub M u32_reads. destruct R as (n & -> & PN). prim H. split; [auto|]. split; [congruence|]. chain.
    apply (NU "crc"%string); [cbn; tauto|auto|]. intros ds ME. snoc. destruct ME as (Z1 & Z2 & Z3 & Z4 & Z5 & Z6 & Z7). rewrite !orb_false_r. subst v.
    assert (W : forall w : N, (w = 16 \/ w = 32) \/ (w <> 16 /\ w <> 32)) by (intros; lia). destruct (W (parse_number_u32 n)) as [[EW|EW]|(W1 & W2)].
    1,2: rewrite EW; cbn; rewrite ?orb_false_r; tauto.
    replace (match parse_number_u32 n with 16 => _ | 32 => _ | _ => _ end) with (with_crc (Some (parse_number_u32 n)) (d_crc_poly d) (d_crc_init d) (d_crc_xor d) (d_refin d) (d_refout d) d).
    2:{ destruct (parse_number_u32 n) as [|x]; [reflexivity|]. repeat (destruct x as [x|x|]; try reflexivity; try (exfalso; apply W1; reflexivity); try (exfalso; apply W2; reflexivity)). }
    cbn. tauto. }
  clear NM.
  destruct (match_keyword t "crc_poly") eqn:NM.
  { named. bnd H. sub M u32_reads. destruct R as (n & -> & PN). prim H. split; [auto|]. split; [congruence|]. chain.
    apply (NU "crc_poly"%string); [cbn; tauto|auto|]. intros ds ME. snoc. destruct ME as (Z1 & Z2 & Z3 & Z4 & Z5 & Z6 & Z7). rewrite !orb_false_r. tauto. }
  clear NM. destruct (match_keyword t "crc_init") eqn:NM.
  { named. bnd H. sub M u32_reads. destruct R as (n & -> & PN). prim H. split; [auto|]. split; [congruence|]. chain.
    apply (NU "crc_init"%string); [cbn; tauto|auto|]. intros ds ME. snoc. destruct ME as (Z1 & Z2 & Z3 & Z4 & Z5 & Z6 & Z7). rewrite !orb_false_r. tauto. }
  clear NM. destruct (match_keyword t "crc_xor") eqn:NM.
  { named. bnd H. sub M u32_reads. destruct R as (n & -> & PN). prim H. split; [auto|]. split; [congruence|]. chain.
    apply (NU "crc_xor"%string); [cbn; tauto|auto|]. intros ds ME. snoc. destruct ME as (Z1 & Z2 & Z3 & Z4 & Z5 & Z6 & Z7). rewrite !orb_false_r. tauto. }
  clear NM. destruct (match_keyword t "scale") eqn:NM.
  { named. bnd H. sub M (double_reads E). destruct R as (n & ->). prim H. split; [auto|]. split; [congruence|]. chain.
    apply (NU "scale"%string); [cbn; tauto|auto|]. intros ds ME. snoc. destruct ME as (Z1 & Z2 & Z3 & Z4 & Z5 & Z6 & Z7). rewrite !orb_false_r, !orb_true_r. tauto. }
  clear NM. destruct (match_keyword t "offset") eqn:NM.
  { named. bnd H. sub M (double_reads E). destruct R as (n & ->). prim H. split; [auto|]. split; [congruence|]. chain.
    apply (NU "offset"%string); [cbn; tauto|auto|]. intros ds ME. snoc. destruct ME as (Z1 & Z2 & Z3 & Z4 & Z5 & Z6 & Z7). rewrite !orb_false_r, !orb_true_r. tauto. }
  clear NM. destruct (match_keyword t "mul") eqn:NM.
  { named. bnd H. sub M i64_reads. destruct R as (n & -> & _). prim H. split; [auto|]. split; [congruence|]. chain.
    apply (NU "mul"%string); [cbn; tauto|auto|]. intros ds ME. snoc. destruct ME as (Z1 & Z2 & Z3 & Z4 & Z5 & Z6 & Z7). rewrite !orb_false_r, !orb_true_r. tauto. }
  clear NM. destruct (match_keyword t "div") eqn:NM.
  { named. bnd H. sub M i64_reads. destruct R as (n & -> & _). prim H. split; [auto|]. split; [congruence|]. chain.
    apply (NU "div"%string); [cbn; tauto|auto|]. intros ds ME. snoc. destruct ME as (Z1 & Z2 & Z3 & Z4 & Z5 & Z6 & Z7). rewrite !orb_false_r, !orb_true_r. tauto. }
  clear NM. destruct (match_keyword t "add") eqn:NM.
  { named. bnd H. sub M i64_reads. destruct R as (n & -> & _). prim H. split; [auto|]. split; [congruence|]. chain.
    apply (NU "add"%string); [cbn; tauto|auto|]. intros ds ME. snoc. destruct ME as (Z1 & Z2 & Z3 & Z4 & Z5 & Z6 & Z7). rewrite !orb_false_r, !orb_true_r. tauto. }
  clear NM. destruct (match_keyword t "sub") eqn:NM.
  { named. bnd H. sub M i64_reads. destruct R as (n & -> & _). prim H. split; [auto|]. split; [congruence|]. chain.
    apply (NU "sub"%string); [cbn; tauto|auto|]. intros ds ME. snoc. destruct ME as (Z1 & Z2 & Z3 & Z4 & Z5 & Z6 & Z7). rewrite !orb_false_r, !orb_true_r. tauto. }
  clear NM. destruct (match_keyword t "poly") eqn:NM.
  { named. bnd H. sub M (poly_reads E f _). destruct R as (l & NL & -> & LL). prim H. split; [auto|]. split; [congruence|]. chain. rewrite app_nil_r.
    exists (Poly l). split; [rewrite KW; apply dr_poly; [auto|lia]|]. intros ds ME. snoc. destruct ME as (Z1 & Z2 & Z3 & Z4 & Z5 & Z6 & Z7). rewrite !orb_false_r, !orb_true_r. tauto. }
  clear NM. destruct (match_keyword t "spline") eqn:NM.
  { named. bnd H. sub M (spline_reads E f _). destruct R as (l & NL & -> & LL). prim H. split; [auto|]. split; [congruence|]. chain. rewrite app_nil_r.
    exists (Spline l). split; [rewrite KW; apply dr_spline; [auto|lia]|]. intros ds ME. snoc. destruct ME as (Z1 & Z2 & Z3 & Z4 & Z5 & Z6 & Z7). rewrite !orb_false_r, !orb_true_r. tauto. }
  clear NM. destruct (match_keyword t "expr") eqn:NM.
  { named. bnd H. sub M (expression_reads E f). prim H. split; [auto|]. split; [congruence|]. chain. rewrite app_nil_r.
    exists Formula. split; [rewrite KW; now apply dr_formula|]. intros ds ME. snoc. destruct ME as (Z1 & Z2 & Z3 & Z4 & Z5 & Z6 & Z7). rewrite !orb_false_r, !orb_true_r. tauto. }
  bnd H.
Qed.
Lemma u32_value s v : literal s v -> parse_number_u32 s = v mod 2 ^ 32.
Proof. intros L. unfold parse_number_u32. rewrite (acc_number_spec 32 s v) by (lia || exact L). reflexivity. Qed.
Lemma advance_word t s p a q : t = p_cur p -> match_keyword t s = true -> advance p = POk a q -> p_err q = false -> good p ->
  good q /\ att q = att p /\ stream p = [ident s] ++ stream q.
Proof.
  intros -> K M E G. apply keyword_text in K as (K & T). destruct (advance_kind _ _ _ _ K ltac:(discriminate) M E G) as (G2 & A & _ & S).
  cbn [textual] in S. rewrite T in S. auto.
Qed.
Lemma decorator_reads E f d : reads (decorator E f d) (fun d' ws => exists x, deco_read x (mark TAt :: ws) /\ forall ds, means ds d -> means (ds ++ [x]) d').
Proof.
  intros p a q H E0 G. unfold decorator in H. bnd H. bnd H. con M. set (t := p_cur p) in *.
  assert (FL : forall s d', In s flags -> ttext t = chars s -> s <> "fill"%string -> means [] d' = means [] d' -> (forall ds, means ds d -> means ds d') ->
    exists x, deco_read x [mark TAt; name (ttext t)] /\ forall ds, means ds d -> means (ds ++ [x]) d').
  { intros s d' IN EQ NF _ ME. exists (Flag s). rewrite EQ. split; [now apply dr_flag|]. intros ds X. apply ME in X. snoc. destruct X as (Z1 & Z2 & Z3 & Z4 & Z5 & Z6 & Z7).
    apply String.eqb_neq in NF. rewrite NF, !orb_false_r. tauto. }
  destruct (match_keyword t "big_endian" || match_keyword t "be") eqn:NM.
  { prim H. split; [auto|]. split; [auto|]. chain. apply orb_true_iff in NM as [NM|NM]; named; eapply FL; eauto; try (cbn; tauto); discriminate. }
  clear NM. destruct (match_keyword t "little_endian" || match_keyword t "le") eqn:NM.
  { prim H. split; [auto|]. split; [auto|]. chain. apply orb_true_iff in NM as [NM|NM]; named; eapply FL; eauto; try (cbn; tauto); discriminate. }
  clear NM. destruct (match_keyword t "fill") eqn:NM.
  { named. bnd H. bnd H. destruct (is_kind TLparen (p_cur r)) eqn:KP.
    - bnd M. advk M0 KP. bnd M. sub M0 u32_reads. destruct R as (n & -> & EV). bnd M. apply when_inv in M0 as [(_ & M0)|(LV & ->)]; [prim M0|]. bnd M. con M0. prim M.
      bnd H. calm_step M. bnd H. match type of M with zero_bits ?x = POk _ ?y => assert (SZ : still x y) by (injection M as _ <-; destruct (_ && _); repeat split) end. clear M. calm_step SZ. prim H.
      split; [auto|]. split; [congruence|]. chain. exists (Fill n). split.
      + cbn [app]. rewrite KW. apply dr_fill. intros x LX XB. rewrite EV, (u32_value _ _ LX) in LV. change (2 ^ 32) with 4294967296 in LV. lia.
      + intros ds ME. snoc. destruct ME as (Z1 & Z2 & Z3 & Z4 & Z5 & Z6 & Z7). rewrite !orb_false_r, !orb_true_r. tauto.
    - prim M. bnd H. calm_step M. bnd H. match type of M with zero_bits ?x = POk _ ?y => assert (SZ : still x y) by (injection M as _ <-; destruct (_ && _); repeat split) end. clear M. calm_step SZ. prim H.
      split; [auto|]. split; [congruence|]. chain. exists (Flag "fill"). split; [cbn [app]; rewrite KW; apply dr_flag; cbn; tauto|].
      intros ds ME. snoc. destruct ME as (Z1 & Z2 & Z3 & Z4 & Z5 & Z6 & Z7). rewrite !orb_false_r, !orb_true_r. tauto. }
  clear NM. destruct (match_keyword t "crc_refin") eqn:NM.
  { prim H. split; [auto|]. split; [auto|]. chain. named; eapply FL; eauto; try (cbn; tauto); discriminate. }
  clear NM. destruct (match_keyword t "crc_refout") eqn:NM.
  { prim H. split; [auto|]. split; [auto|]. chain. named; eapply FL; eauto; try (cbn; tauto); discriminate. }
  clear NM. destruct (match_keyword t "optional") eqn:NM.
  { bnd H. calm_step M. prim H. split; [auto|]. split; [congruence|]. chain. named; eapply FL; eauto; try (cbn; tauto); discriminate. }
  clear NM. destruct (match_keyword t "eof") eqn:NM.
  { prim H. split; [auto|]. split; [auto|]. chain. named; eapply FL; eauto; try (cbn; tauto); discriminate. }
  bnd H. con M. bnd H. sub M (args_reads E f t d). bnd H. con M. prim H. destruct R as (x & DR & ME). split; [auto|]. split; [congruence|]. chain. exists x. split; [exact DR|exact ME].
Qed.
Lemma decorators_reads E f : forall d, reads (decorators E f d) (fun d' ws => exists xs, decos_read xs ws /\ forall ds, means ds d -> means (ds ++ xs) d').
Proof.
  induction f as [|f IH]; intros d p a q H E0 G; [discriminate|]. cbn [decorators] in H. bnd H. destruct (is_kind TAt (p_cur p)) eqn:K.
  - bnd H. advk M K. bnd H. sub M (decorator_reads E f d). sub H (IH _). destruct R as (x & DR & M1). destruct R0 as (xs & DS & M2). split; [auto|]. split; [congruence|].
    chain. exists (x :: xs). rewrite app_nil_r. split; [now apply (dsr_more _ _ (mark TAt :: w))|]. intros ds ME. specialize (M2 _ (M1 _ ME)). rewrite <- app_assoc in M2. exact M2.
  - prim H. split; [auto|]. split; [auto|]. chain. exists []. split; [constructor|]. intros ds ME. now rewrite app_nil_r.
Qed.
Lemma decos_of E f p a q : decorators E f deco0 p = POk a q -> p_err q = false -> good p -> good q /\ att q = att p /\ ate p q (fun ws => exists ds, decos_read ds ws /\ means ds a).
Proof.
  intros H E0 G. destruct (decorators_reads E f deco0 _ _ _ H E0 G) as (G2 & A & AT). split; [auto|]. split; [auto|]. eapply ate_impl; [|exact AT].
  intros ws (xs & DS & M). exists xs. split; [auto|]. exact (M [] means_none).
Qed.

(** ** Limits and constants *)
Lemma range_inv E op lo hi p a q : emit_range_check E op lo hi p = POk a q -> p_err q = false -> still p q /\ fair_limits op (Some (ttext lo, ttext hi)).
Proof.
  intros H E0. split.
  - unfold emit_range_check in H.
    cbv zeta in H. repeat match type of H with (match ?x with _ => _ end) _ = _ => destruct x end;
      first [ now apply emit_inv in H
            | unfold pbind, ret, number_i64, of_result in H;
              repeat match type of H with context [parse_number_i64 ?x] => destruct (parse_number_i64 x); try discriminate end; unfold ret in H;
              match type of H with (if ?b then _ else _) _ = _ => destruct b; [exfalso; eapply error_inv; eauto|now apply emit_inv in H] end ].
  - intros x y W1 W2. pose proof (writes_type _ _ _ W1) as T1. pose proof (writes_type _ _ _ W2) as T2.
    pose proof (writes_i64 _ _ _ W1) as I1. pose proof (writes_i64 _ _ _ W2) as I2.
    unfold in_type in T1, T2. destruct (type_bytes op) as [n|] eqn:TB; [|contradiction].
    pose proof (writes_u32 _ _ _ W1) as U1. pose proof (writes_u32 _ _ _ W2) as U2.
    assert (WR : forall z, (- 2 ^ 63 <= z < 2 ^ 63)%Z -> wrap64 z = z) by (intros z Z0; unfold wrap64; change (2 ^ 64)%Z with 18446744073709551616%Z; change (2 ^ 63)%Z with 9223372036854775808%Z in *; lia).
    apply int_types in TB. cbn [In] in TB. decompose [or] TB; try contradiction; match goal with X : _ = _ |- _ => injection X as <- <- end;
      unfold emit_range_check in H; cbv zeta beta iota in H; unfold number_i64 in H; rewrite ?I1, ?I2 in H; cbn [of_result] in H; unfold pbind, ret in H;
      match type of H with (if ?b then _ else _) _ = _ => destruct b eqn:BB; [exfalso; eapply error_inv; eauto|] end.
    1-3: specialize (U1 ltac:(lia)); specialize (U2 ltac:(lia)); lia.
    1: rewrite !ofZ_wrap in BB; unfold ofZ in BB; cbn in T1, T2; change (2 ^ (8 * Z.of_N 8))%Z with 18446744073709551616%Z in BB; lia.
    all: cbn in T1, T2; rewrite !WR in BB by (change (2 ^ 63)%Z with 9223372036854775808%Z; lia); lia.
Qed.
Lemma int_text_range n v : int_text n v -> (- 2 ^ 63 <= v < 2 ^ 63)%Z.
Proof.
  assert (W : forall z, (- 2 ^ 63 <= wrap64 z < 2 ^ 63)%Z) by (intros z; unfold wrap64; change (2 ^ 64)%Z with 18446744073709551616%Z; change (2 ^ 63)%Z with 9223372036854775808%Z; lia).
  destruct 1; apply W.
Qed.
Lemma fits_inv ty n z : type_bytes ty <> None -> parse_number_i64 n = Ok z -> const_fits ty (ofZ 8 z) = true -> fair_constant ty n.
Proof.
  intros TB PN F N1 N2 v IT. pose proof (int_text_value _ _ IT) as X. rewrite PN in X. injection X as ->. pose proof (int_text_range _ _ IT) as R.
  change (2 ^ 63)%Z with 9223372036854775808%Z in R.
  destruct (type_bytes ty) as [k|] eqn:TK; [|congruence]. unfold in_type. rewrite TK.
  assert (SV : toS 8 (ofZ 8 v) = v).
  { unfold toS, ofZ. change (2 ^ Z.of_N (8 * 8))%Z with 18446744073709551616%Z. change (2 ^ (8 * 8 - 1)) with 9223372036854775808.
    match goal with |- (if ?b then _ else _) = _ => destruct b eqn:BB end; lia. }
  assert (OV : Z.of_N (ofZ 8 v) = (v mod 18446744073709551616)%Z) by (unfold ofZ; change (2 ^ Z.of_N (8 * 8))%Z with 18446744073709551616%Z; lia).
  apply int_types in TK. cbn [In] in TK. decompose [or] TK; try contradiction; match goal with X : _ = _ |- _ => injection X as <- <- end; try congruence;
    cbn [const_fits] in F; rewrite ?SV in F; cbn; lia.
Qed.

(** ** Types *)
Lemma any_text t l : match_any t l = true -> exists s, In s l /\ tk t = TIdentifier /\ ttext t = chars s.
Proof. unfold match_any. intros H. apply existsb_exists in H as (s & I & K). exists s. split; [auto|]. now apply keyword_text. Qed.
Ltac any := match goal with H : match_any ?t ?l = true |- _ => let s := fresh "s" in let I := fresh "I" in let T := fresh "T" in
  apply any_text in H as (s & I & _ & T); exists s; split; [|exact T]; cbn [In] in I; decompose [or] I; subst; try contradiction; cbn; tauto end.
Lemma int_name_inv t op : int_name t = Some op -> type_bytes op <> None /\ exists u, In (op, u) type_words /\ ttext t = chars u.
Proof.
  unfold int_name. intros H.
  repeat match type of H with (if ?b then _ else _) = _ => let B := fresh "B" in destruct b eqn:B; [injection H as <-; split; [intros X; vm_compute in X; discriminate X|any]|clear B] end. discriminate.
Qed.
Lemma type_name_inv t op : type_name t = Some op -> exists u, In (op, u) type_words /\ ttext t = chars u.
Proof.
  unfold type_name. intros H. destruct (int_name t) eqn:I; [injection H as <-; now apply int_name_inv in I as (_ & I)|]. clear I.
  repeat match type of H with (if ?b then _ else _) = _ => let B := fresh "B" in destruct b eqn:B; [injection H as <-; any|clear B] end. discriminate.
Qed.
Lemma enum_base_inv t op : enum_base t = Some op -> exists u, In (op, u) enum_words /\ ttext t = chars u.
Proof.
  unfold enum_base. destruct (match_keyword t "byte") eqn:NB; [discriminate|]. intros H. pose proof H as H0. unfold int_name in H.
  repeat match type of H with (if ?b then _ else _) = _ => let B := fresh "B" in destruct b eqn:B; [injection H as <-|clear B] end; try discriminate; try any.
  apply any_text in B as (s & I & K & T). exists s. split; [|exact T]. cbn [In] in I. decompose [or] I; subst; try contradiction; try (cbn; tauto).
  exfalso. unfold match_keyword in NB. rewrite (proj2 (is_kind_iff _ _) K) in NB. apply same_text_spec in T. cbn [andb] in NB. congruence.
Qed.
Lemma prefix_inv t a b c op : prefix_ops t a b c = Some op -> (exists s, In s (map snd counter_words) /\ ttext t = chars s) /\ In op [a; b; c].
Proof.
  unfold prefix_ops. intros H.
  repeat match type of H with (if ?b then _ else _) = _ => let B := fresh "B" in destruct b eqn:B; [injection H as <-; split; [any|cbn; tauto]|clear B] end. discriminate.
Qed.

(** ** What follows the name *)
Definition kept (d d' : ModelSchema.deco) : Prop := d' = d \/ exists n, d' = with_fixed n d.
Lemma shape_reads ty d ds : means ds d -> reads (field_shape ty d) (fun r ws => exists b pr u m, forall o, let sh := Build_shape o b pr u m in
  ws = shape_words (Build_shape None b pr u m) /\ prefix_ok (ttext ty) ds sh /\ some (s_array (snd r)) = some b /\ s_until (snd r) = some u /\
  (s_str_op (snd r) =? 0) = negb (some pr && negb (open_array sh && negb (existsb sized ds))) /\ kept d (fst r)).
Proof.
  intros ME p a q H E0 G. unfold field_shape in H. bnd H. bnd H.
  assert (BR : good r /\ att r = att p /\ exists b, stream p = opt (fun b => mark TLbracket :: opt (fun n => [num n]) b ++ [mark TRbracket]) b ++ stream r /\
    snd v = option_map (fun x : option (list N) => match x with None => true | Some _ => false end) b /\ (snd v = Some true -> fst v = d) /\ kept d (fst v)).
  { destruct (is_kind TLbracket (p_cur p)) eqn:KL.
    - bnd M. advk M0 KL. bnd M. destruct (is_kind TRbracket (p_cur r0)) eqn:KR.
      + bnd M. advk M0 KR. prim M. split; [auto|]. split; [congruence|]. exists (Some None). cbn [opt app option_map fst snd some]. rewrite SS, SS0. split; [reflexivity|]. split; [reflexivity|]. split; [auto|]. now left.
      + bnd M. sub M0 u32_reads. destruct R as (n & -> & ->). bnd M. con M0. prim M. split; [auto|]. split; [congruence|]. exists (Some (Some n)). cbn [opt app option_map fst snd some]. rewrite SS, SS0, SS1.
        split; [reflexivity|]. split; [reflexivity|]. split; [discriminate|]. right. eauto.
    - prim M. split; [auto|]. split; [auto|]. exists None. cbn [opt app option_map fst snd some]. split; [reflexivity|]. split; [reflexivity|]. split; [discriminate|]. now left. }
  clear M. destruct BR as (G1 & A1 & b & S1 & AR & FD & KD). destruct v as (d1 & arr). cbn [fst snd] in *. subst arr.
  pose proof ME as (_ & _ & _ & _ & _ & SZ & _).
  assert (ST : match_keyword ty "string" = true -> ttext ty = chars "string") by (intros X; now apply keyword_text in X).
  assert (SA : some (option_map (fun x : option (list N) => match x with None => true | Some _ => false end) b) = some b) by now destruct b.
  bnd H. destruct (match_keyword (p_cur r) "prefix") eqn:KP.
  - bnd H. apply keyword_text in KP as (KI & KT). advk M KI. rewrite KT in SS. bnd H. bnd H. con M. set (pt := p_cur r0) in *.
    match type of H with (if ?c then _ else _) _ = _ => assert (OP : c = match b with Some None => true | _ => false end && negb (existsb sized ds)) end.
    { destruct b as [[n|]|]; cbn; auto. rewrite FD by reflexivity. rewrite <- SZ. now destruct (some (d_fixed d)), (some (d_count d)). }
    assert (FIN : forall s, In s (map snd counter_words) -> ttext pt = chars s ->
      stream p = shape_words (Build_shape None b (Some s) None None) ++ stream r1).
    { intros s _ T. rewrite S1, SS, SS0, T. unfold shape_words. cbn [width brackets prefix until most opt]. rewrite <- !app_assoc. reflexivity. }
    rewrite OP in H. destruct (match b with Some None => true | _ => false end && negb (existsb sized ds)) eqn:OA; [|destruct (match_keyword ty "string") eqn:KS; [|bnd H]].
    + destruct (prefix_ops pt 53 54 55) as [op|] eqn:PO; [|bnd H]. prim H. apply prefix_inv in PO as ((s & IS & TS) & IO). split; [auto|]. split; [congruence|].
      eexists. split; [apply (FIN s); auto|]. exists b, (Some s), None, None. intros o. cbn. unfold open_array. cbn [brackets]. rewrite OA. split; [reflexivity|]. split.
      { split; cbn; [intros p0 X; injection X as <-; unfold open_array; cbn; auto 8|intros [X|X]; congruence]. }
      auto.
    + destruct (prefix_ops pt 49 50 51) as [op|] eqn:PO; [|bnd H]. prim H. apply prefix_inv in PO as ((s & IS & TS) & IO). split; [auto|]. split; [congruence|].
      eexists. split; [apply (FIN s); auto|]. exists b, (Some s), None, None. intros o. cbn. unfold open_array. cbn [brackets]. rewrite OA. split; [reflexivity|]. split.
      { split; cbn; [intros p0 X; injection X as <-; unfold open_array; cbn; auto 8|intros [X|X]; congruence]. }
      split; [auto|]. split; [auto|]. split; [|auto]. cbn in IO. destruct IO as [<-|[<-|[<-|[]]]]; reflexivity.
  - destruct (match_keyword ty "string") eqn:KS.
    + specialize (ST eq_refl). bnd H.
      assert (UR : good r0 /\ att r0 = att r /\ exists u, stream r = opt (fun n => [ident "until"; num n]) u ++ stream r0 /\ v = some u).
      { destruct (match_keyword (p_cur r) "until") eqn:KU.
        - apply keyword_text in KU as (KI & KT). bnd M. advk M0 KI. rewrite KT in SS. bnd M. con M0. prim M. split; [auto|]. split; [congruence|]. exists (Some (ttext (p_cur r1))). cbn [opt app option_map fst snd some]. rewrite SS, SS0. auto.
        - prim M. split; [auto|]. split; [auto|]. now exists None. }
      clear M. destruct UR as (G2 & A2 & u & S2 & ->). bnd H. bnd H.
      assert (UM : good r1 /\ att r1 = att r0 /\ exists u, stream r0 = opt (fun n => [ident "max"; num n]) u ++ stream r1).
      { destruct (match_keyword (p_cur r0) "max") eqn:KU.
        - apply keyword_text in KU as (KI & KT). bnd M. advk M0 KI. rewrite KT in SS. bnd M. sub M0 u32_reads. destruct R as (n & -> & _). prim M. split; [auto|]. split; [congruence|]. exists (Some n). cbn [opt app option_map fst snd some]. rewrite SS, SS0. auto.
        - prim M. split; [auto|]. split; [auto|]. now exists None. }
      clear M. destruct UM as (G3 & A3 & m & S3). prim H. split; [auto|]. split; [congruence|].
      exists (shape_words (Build_shape None b None u m)). split; [rewrite S1, S2, S3; unfold shape_words; cbn [width brackets prefix until most opt app]; now rewrite <- !app_assoc|].
      exists b, None, u, m. intros o. cbn. split; [reflexivity|]. split; [split; cbn; [discriminate|auto]|]. auto.
    + prim H. split; [auto|]. split; [congruence|]. exists (shape_words (Build_shape None b None None None)).
      split; [rewrite S1; unfold shape_words; cbn [width brackets prefix until most opt app]; now rewrite app_nil_r|].
      exists b, None, None, None. intros o. cbn. split; [reflexivity|]. split; [split; cbn; [discriminate|intros [X|X]; congruence]|]. auto.
Qed.

(** ** The types of fields *)
Definition listed (e : enumdef) : enum := {| m_name := en_name e; m_type := en_type e; m_members := en_vals e |}.
Definition scope_of (p : pst) : scope := {| structs := map fst (p_structs p); enums := map listed (p_enums p); inside := p_sname p; packed := p_bitmode p |}.
Definition wide (s : SpecGrammar.shape) : N := match width s with Some n => parse_number_u32 n mod 256 | None => 0 end.
Lemma wide_none s : wide s = 0 -> no_width s.
Proof. unfold wide, no_width. destruct (width s) as [n|]; [|auto]. intros H v L B. rewrite (u32_value _ _ L) in H. change (2 ^ 32) with 4294967296 in H. lia. Qed.
Lemma struct_found l s c : find_struct l s = Some c -> In s (map fst l).
Proof.
  unfold find_struct. intros H. destruct (find _ l) as [x|] eqn:F; [|discriminate]. apply find_some in F as (I & T). apply same_text_spec in T. subst s. now apply in_map.
Qed.
Lemma struct_unfound l s : find_struct l s = None -> ~ In s (map fst l).
Proof.
  unfold find_struct. intros H I. destruct (find _ l) as [x|] eqn:F; [discriminate|]. apply in_map_iff in I as (x & <- & I). apply (List.find_none _ _ F) in I.
  assert (same_text (fst x) (fst x) = true) by now apply same_text_spec. congruence.
Qed.
Lemma enum_found l s e : find_enum l s = Some e -> In (listed e) (map listed l) /\ en_name e = s.
Proof. unfold find_enum. intros F. apply find_some in F as (I & T). apply same_text_spec in T. split; [now apply in_map|auto]. Qed.
Lemma enum_unfound l s : find_enum l s = None -> ~ In s (map m_name (map listed l)).
Proof.
  unfold find_enum. intros F I. rewrite map_map in I. apply in_map_iff in I as (x & <- & I). apply (List.find_none _ _ F) in I. cbn in I.
  assert (same_text (en_name x) (en_name x) = true) by now apply same_text_spec. congruence.
Qed.
Lemma limits_inv E op d p a q : (match d_range d with Some (lo, hi) => emit_range_check E op lo hi | None => ret tt end) p = POk a q -> p_err q = false ->
  still p q /\ fair_limits op (option_map (fun x : token * token => (ttext (fst x), ttext (snd x))) (d_range d)).
Proof. destruct (d_range d) as [(lo & hi)|]; intros H E0; [exact (range_inv E _ _ _ _ _ _ H E0)|]. injection H as _ <-. split; [apply still_refl|exact I]. Qed.
Ltac quiet H := repeat match type of H with pbind (when ?b error) _ _ = POk _ _ => let X := fresh "B" in
  bnd H; match goal with M : when b error _ = POk _ _ |- _ => apply when_inv in M as [(_ & M)|(X & ->)]; [prim M|] end end.
Lemma copy_sticky code n s : sticky (fun p => match append_with_prefix n code s (p_strs p) (p_out p) with
  | None => PFuel | Some (Ub u) => PUb u | Some (Ok (strs, out)) => POk tt (set_out out (set_strs strs p)) end).
Proof. intros p a q E H. destruct (append_with_prefix _ _ _ _ _) as [[(x & y)|]|]; try discriminate. injection H as _ <-. exact E. Qed.
Lemma new_sticky s : sticky (fun p => let (fs, _) := strtab_add (p_fields p) s in let p' := set_struct (p_sname p) fs p in
  POk tt (if lenN fs =? lenN (p_fields p) then set_err p' else p')).
Proof. intros p a q E H. destruct (strtab_add _ _) as [fs i]. injection H as _ <-. destruct (_ =? _); [reflexivity|exact E]. Qed.
Global Hint Resolve copy_sticky new_sticky : stk.
Lemma const_inv E ty d key v p a q : const_field E ty d key v p = POk a q -> p_err q = false ->
  still p q /\ exists op u, In (op, u) type_words /\ type_bytes op <> None /\ ttext ty = chars u /\ const_fits op v = true /\
  fair_limits op (option_map (fun x : token * token => (ttext (fst x), ttext (snd x))) (d_range d)).
Proof.
  intros H E0. unfold const_field in H. bnd H. destruct (int_name ty) as [op|] eqn:IN; [|bnd M]. prim M. quiet H. bnd H. apply limits_inv in H as (S2 & FL); [|auto].
  split; [eapply still_trans; eauto|]. apply int_name_inv in IN as (TB & u & IU & TU). exists op, u. repeat (split; [assumption|]). split; [|assumption]. cbn [some] in B. destruct (const_fits op v); [reflexivity|discriminate].
Qed.
Lemma struct_inv ty nm d width key code p b q : struct_field ty nm d width key code p = POk b q -> p_err q = false ->
  b = true /\ still p q /\ p_sname p <> Some (ttext ty) /\ has_trans d = false /\ d_range d = None /\ d_crc d = None /\ width = 0.
Proof.
  intros H E0. unfold struct_field in H. bnd H. destruct (match p_sname p with Some n => same_text (ttext ty) n | None => false end) eqn:SN; [bnd H|]. quiet H. bnd H. bnd H.
  assert (S2 : still r r0).
  { destruct (append_with_prefix _ _ _ _ _) as [[(x & y)|]|]; [|discriminate|discriminate]. injection M0 as _ <-. repeat split. }
  clear M0. bnd H. prim H. split; [reflexivity|]. split; [eapply still_trans; [exact M|]; eapply still_trans; eauto|].
  split; [|split; [assumption|]].
  - intros X. rewrite X in SN. assert (same_text (ttext ty) (ttext ty) = true) by now apply same_text_spec. congruence.
  - destruct (d_range d); [discriminate|]. destruct (d_crc d); [discriminate|]. repeat split. lia.
Qed.
Lemma enum_field_inv E d width key e p a q : enum_field E d width key e p = POk a q -> p_err q = false ->
  still p q /\ has_trans d = false /\ d_crc d = None /\ width = 0 /\ fair_limits (en_type e) (option_map (fun x : token * token => (ttext (fst x), ttext (snd x))) (d_range d)).
Proof.
  intros H E0. unfold enum_field in H. quiet H. bnd H. apply limits_inv in H as (S2 & FL); [|auto]. split; [eapply still_trans; eauto|]. split; [auto|].
  destruct (d_crc d); [discriminate|]. split; [auto|]. split; [lia|auto].
Qed.
Lemma string_inv d width key s p a q : string_field d width key s p = POk a q -> p_err q = false ->
  still p q /\ has_trans d = false /\ d_range d = None /\ d_crc d = None /\ width = 0 /\ ((s_str_op s =? 0) = true -> some (s_array s) = true -> s_until s = true).
Proof.
  intros H E0. unfold string_field in H. quiet H. destruct (d_range d); [discriminate|]. destruct (d_crc d); [discriminate|]. apply when_inv in H as [(SO & H)|(SO & ->)].
  - quiet H. apply emit_inv in H. split; [auto|]. repeat (split; [auto; lia|]). intros _ X. rewrite X in B3. destruct (s_until s); [reflexivity|discriminate].
  - split; [apply still_refl|]. repeat (split; [auto; lia|]). congruence.
Qed.
Lemma basic_inv E ty d width key p b q : basic_field E ty d width key p = POk b q -> p_err q = false ->
  b = true /\ still p q /\ exists op u, In (op, u) type_words /\ ttext ty = chars u /\ (In op [0x18; 0x19] -> p_bitmode p = false /\ width = 0) /\
  (p_bitmode p = false -> width = 0 ->
     match d_crc d with
     | Some w => (w = 16 -> op = 0x11) /\ (w = 32 -> op = 0x12)
     | None => d_expr d = false -> fair_limits op (option_map (fun x : token * token => (ttext (fst x), ttext (snd x))) (d_range d))
     end).
Proof.
  intros H E0. unfold basic_field in H. bnd H. cbv zeta in H. set (w := if p_bitmode p && (width =? 0) then _ else _) in H. destruct (0 <? w) eqn:W0.
  - destruct (type_name ty) as [op|] eqn:TN; [|bnd H]. pose proof (type_name_inv _ _ TN) as (u & IU & TU).
    match type of H with (match ?c with _ => _ end) _ = _ => destruct c as [o|] eqn:CO; [|bnd H] end. bnd H. bnd H.
    assert (S2 : still r r0). { unfold add_bits in M0. destruct (_ && _) in M0; [destruct (_ <? _)%Z in M0; [discriminate|]|]; injection M0 as _ <-; repeat split. }
    prim H. split; [reflexivity|]. split; [eapply still_trans; eauto|]. exists op, u. split; [auto|]. split; [auto|]. split.
    + intros [<-|[<-|[]]]; discriminate CO.
    + intros BM ->. subst w. rewrite BM in W0. cbn in W0. discriminate.
  - destruct (p_bitmode p) eqn:BM; [bnd H|]. destruct (type_name ty) as [op|] eqn:TN; [|bnd H]. pose proof (type_name_inv _ _ TN) as (u & IU & TU). cbn [andb] in w. subst w.
    bnd H. prim H. split; [reflexivity|]. assert (X : still p r /\ match d_crc d with Some w => (w = 16 -> op = 0x11) /\ (w = 32 -> op = 0x12)
      | None => d_expr d = false -> fair_limits op (option_map (fun x : token * token => (ttext (fst x), ttext (snd x))) (d_range d)) end).
    { destruct (d_crc d) as [w|].
      - destruct (N.eq_dec w 16) as [->|N1]; [|destruct (N.eq_dec w 32) as [->|N2]].
        + quiet M. apply emit_inv in M. split; [auto|]. split; [intros _; lia|discriminate].
        + quiet M. apply emit_inv in M. split; [auto|]. split; [discriminate|intros _; lia].
        + split; [|split; congruence]. repeat match type of M with (match ?x with _ => _ end) _ = _ => destruct x; try (injection M as _ <-; apply still_refl) end; congruence.
      - destruct (d_expr d); [apply emit_inv in M; split; [auto|discriminate]|]. bnd M. apply limits_inv in M as (S2 & FL); [|auto]. split; [eapply still_trans; eauto|auto]. }
    destruct X as (S2 & C). split; [auto|]. exists op, u. split; [auto|]. split; [auto|]. split; [intros _; split; [reflexivity|lia]|auto].
Qed.
Definition type_part (E : env) (ty nm : token) (d : ModelSchema.deco) (s : ModelSchema.shape) (width key : N) : par bool :=
  match d_const d with
  | Some v => const_field E ty d key v ;; ret true
  | None =>
    let% sd := get (fun p => find_struct (p_structs p) (ttext ty)) in
    let% ed := get (fun p => find_enum (p_enums p) (ttext ty)) in
    match sd, ed with
    | Some code, _ => struct_field ty nm d width key code
    | None, Some e => enum_field E d width key e ;; ret true
    | None, None =>
      if match_keyword ty "string" then string_field d width key s ;; ret true
      else basic_field E ty d width key
    end
  end.
Lemma typed_inv E ty nm d d' ds s sh key p b q : means ds d -> kept d d' -> some (s_array s) = some (brackets sh) -> s_until s = some (until sh) ->
  (s_str_op s =? 0) = negb (some (prefix sh) && negb (open_array sh && negb (existsb sized ds))) ->
  type_part E ty nm d' s (wide sh) key p = POk b q -> p_err q = false -> b = true /\ still p q /\ typed (scope_of p) (ttext ty) ds sh.
Proof.
  intros ME KD SA SU SO H E0. destruct ME as (Z1 & Z2 & Z3 & Z4 & Z5 & Z6 & Z7).
  assert (KE : d_const d' = d_const d /\ d_range d' = d_range d /\ d_crc d' = d_crc d /\ has_trans d' = has_trans d /\ d_expr d' = d_expr d)
    by (destruct KD as [-> | (n & ->)]; repeat split).
  destruct KE as (Y1 & Y2 & Y3 & Y4 & Y5). unfold type_part in H. rewrite Y1 in H. destruct (constant_of ds) as [n|] eqn:CO.
  { destruct Z1 as (z & PN & Z1). rewrite Z1 in H. bnd H. prim H. apply const_inv in M as (S2 & op & u & IU & TB & TU & CF & FL); [|auto]. rewrite Y2, Z2 in FL.
    split; [auto|]. split; [auto|]. eapply ty_constant; eauto using fits_inv. }
  rewrite Z1 in H. bnd H. bnd H. assert (CN : d_crc d = None -> crc_of ds = None) by (rewrite Z3; now destruct (crc_of ds)).
  assert (LN : d_range d = None -> limits_of ds = None) by (rewrite <- Z2; now intros ->).
  destruct (find_struct (p_structs p) (ttext ty)) as [code|] eqn:FS.
  { apply struct_inv in H as (-> & S2 & NI & HT & RN & CR & W); [|auto]. rewrite Y2 in RN. rewrite Y3 in CR. rewrite Y4 in HT. split; [auto|]. split; [auto|].
    apply ty_struct; auto using wide_none; [eapply struct_found; eauto|]. split; [congruence|auto]. }
  apply struct_unfound in FS. destruct (find_enum (p_enums p) (ttext ty)) as [e|] eqn:FE.
  { bnd H. prim H. apply enum_field_inv in M as (S2 & HT & CR & W & FL); [|auto]. rewrite Y2, Z2 in FL. rewrite Y3 in CR. rewrite Y4 in HT. split; [auto|]. split; [auto|].
    apply enum_found in FE as (IE & NE). eapply (ty_enum _ _ _ _ (listed e)); eauto using wide_none. split; [congruence|auto]. }
  apply enum_unfound in FE. assert (UK : unknown (scope_of p) (ttext ty)) by (split; auto). destruct (match_keyword ty "string") eqn:KS.
  { bnd H. prim H. apply string_inv in M as (S2 & HT & RN & CR & W & AU); [|auto]. rewrite Y2 in RN. rewrite Y3 in CR. rewrite Y4 in HT. split; [auto|]. split; [auto|].
    apply keyword_text in KS as (_ & KS). apply ty_string; auto using wide_none; [split; [congruence|auto]|]. intros NB. rewrite SO, SA, SU in AU.
    destruct (until sh); [left; discriminate|right]. destruct (brackets sh); [|congruence]. cbn [some] in AU. destruct (prefix sh); cbn [some andb negb] in AU; [|discriminate AU; auto].
    split; [discriminate|]. destruct (open_array sh && negb (existsb sized ds)); [|reflexivity]. discriminate AU; auto. }
  apply basic_inv in H as (-> & S2 & op & u & IU & TU & FL & CR); [|auto]. split; [auto|]. split; [auto|]. eapply ty_basic; eauto.
  - intros I. destruct (FL I) as (X & W). split; [exact X|now apply wide_none].
  - cbn. intros BM WN. unfold wide in CR. rewrite WN in CR. specialize (CR BM eq_refl). rewrite Y3, Z3, Y5, Z7, Y2, Z2 in CR. destruct (crc_of ds) as [n|]; cbn [option_map] in CR; [|exact CR].
    split; intros L; apply u32_value in L; apply CR; rewrite L; reflexivity.
Qed.

(** ** Fields *)
Definition refield (gs : list (list N)) (p : pst) : pst := set_struct (p_sname p) gs p.
Lemma add_new fs n fs' i : text n -> strtab_add fs n = (fs', i) -> (lenN fs' =? lenN fs) = false -> ~ In n fs /\ fs' = fs ++ [n].
Proof.
  unfold strtab_add. intros T H L. destruct (strtab_find fs n 0) eqn:F; injection H as <- <-; [lia|]. split; [|reflexivity]. clear L. revert F. generalize 0.
  induction fs as [|x fs IH]; cbn [strtab_find In]; [auto|]. intros j F. destruct (list_eq_dec N.eq_dec (cstr x) n) as [|NE]; [discriminate|]. intros [-> | I]; [now rewrite cstr_text in NE|]. now apply (IH (j + 1)).
Qed.
Definition field_done (ds : list deco) (p q : pst) (ws : list word) : Prop :=
  existsb standing ds = true /\ att q = att p /\ (ws = [mark TSemicolon] \/ ws = [] /\ tk (p_cur q) = TRbrace) \/
  exists t n sh, ws = [name t; name n] ++ shape_words sh ++ [mark TSemicolon] /\ ~ In n (p_fields p) /\ prefix_ok t ds sh /\ typed (scope_of p) t ds sh /\
    att q = att (refield (p_fields p ++ [n]) p).
Lemma rest_inv E d ds p a q : means ds d -> field_rest E d p = POk a q -> p_err q = false -> good p -> good q /\ ate p q (field_done ds p q).
Proof.
  intros ME H E0 G. pose proof ME as (_ & _ & _ & _ & ST & _ & _). unfold field_rest in H. bnd H. bnd H.
  destruct (d_alone d && (is_kind TSemicolon (p_cur p) || is_kind TRbrace (p_cur p))) eqn:AL.
  { apply andb_true_iff in AL as (AL & K). rewrite ST in AL. apply when_inv in H as [(KS & H)|(KS & ->)].
    - advk H KS. split; [auto|]. chain. left. auto.
    - rewrite KS in K. apply is_kind_iff in K. split; [auto|]. chain. left. auto. }
  bnd H. calm_step M. bnd H. bnd H. con M. set (ty := p_cur r) in *. bnd H. destruct (is_kind TSelf (p_cur r0)); [exfalso; eapply error_inv; eauto|].
  bnd H. con M. set (nm := p_cur r0) in *. bnd H.
  assert (TX : text (ttext nm)). { destruct G1 as (_ & _ & _ & W). apply W. rewrite SS1. now left. }
  destruct (strtab_add (p_fields r1) (ttext nm)) as (fs & i) eqn:SA. injection M as _ M. destruct (lenN fs =? lenN (p_fields r1)) eqn:LE0; [subst r2; discriminate|].
  apply (add_new _ _ _ _ TX SA) in LE0 as (NI & ->). 
  assert (FR : p_fields r1 = p_fields p) by (assert (X : att r1 = att p) by congruence; now injection X).
  assert (S2 : good r2 /\ stream r2 = stream r1 /\ att r2 = att (refield (p_fields p ++ [ttext nm]) p)).
  { subst r2. split; [exact G2|]. split; [reflexivity|]. rewrite <- FR. assert (X : att r1 = att p) by congruence. unfold att, refield in *. cbn. injection X as -> -> -> -> -> -> -> -> -> ->. reflexivity. }
  clear M. destruct S2 as (G3 & SS2 & A3). bnd H. calm_step M. bnd H. bnd H.
  assert (WD : good r4 /\ att r4 = att r3 /\ exists o, stream r3 = opt (fun n => [mark TColon; num n]) o ++ stream r4 /\ forall b pr u m, v4 = wide (Build_shape o b pr u m)).
  { destruct (is_kind TColon (p_cur r3)) eqn:KC.
    - bnd M. advk M0 KC. bnd M. con M0. bnd M. prim M. split; [auto|]. split; [congruence|]. exists (Some (ttext (p_cur r5))). cbn [opt app]. rewrite SS4, SS5, P2. auto.
    - prim M. split; [auto|]. split; [auto|]. exists None. auto. }
  clear M. destruct WD as (G5 & A5 & o & SS4 & WV). bnd H. sub M (shape_reads ty d ds ME). destruct R as (b & pr & u & m & R). specialize (R o).
  destruct v5 as (d' & s). cbn [fst snd] in *. destruct R as (-> & PO & RA & RU & RO & KD). quiet H.
  bnd H. assert (SB : still r5 r6) by (apply when_inv in M as [(_ & M)|(_ & ->)]; [now apply emit_inv in M|apply still_refl]). clear M. calm_step SB.
  bnd H. calm_step M. bnd H. rewrite (WV b pr u m) in M. fold (type_part E ty nm d' s (wide (Build_shape o b pr u m)) v3) in M.
  eapply typed_inv in M; eauto. destruct M as (-> & S3 & TY).
  assert (SC : scope_of r7 = scope_of p).
  { assert (X : att r7 = att (refield (p_fields p ++ [ttext nm]) p)) by congruence. unfold att, refield in X. cbn in X. injection X. intros. unfold scope_of. congruence. }
  rewrite SC in TY. calm_step S3. apply when_inv in H as [(_ & H)|(X & _)]; [|discriminate]. bnd H.
  assert (SB : still r8 r9) by (apply when_inv in M as [(_ & M)|(_ & ->)]; [now apply emit_inv in M|apply still_refl]). clear M. calm_step SB.
  bnd H. con M. assert (SB : still r10 q) by (apply when_inv in H as [(_ & H)|(_ & ->)]; [now apply emit_inv in H|apply still_refl]). clear H. calm_step SB.
  split; [auto|]. chain. right. exists (ttext ty), (ttext nm), (Build_shape o b pr u m). rewrite <- FR at 1. split; [|split; [auto|]; split; [auto|]; split; [auto|congruence]].
  unfold shape_words. cbn [width brackets prefix until most opt app]. now rewrite <- !app_assoc.
Qed.
