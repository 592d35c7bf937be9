(** What the compiler's parser accepts: from a run without errors back to the grammar. *)
From Coq Require Import Strings.String Lia ZifyBool ZifyN ZifyNat.
From Verif Require Import Base SpecBytes ModelFloat SpecVM ModelVM ModelImage ModelText SpecText LemText ModelNames ModelParse ModelSchema SpecParse SpecPacket SpecMessage SpecSource
  LemParse LemSource LemCompile LemErr SpecGrammar.
Ltac Zify.zify_post_hook ::= Z.div_mod_to_equations.

(** ** The words still to come *)
Fixpoint upto (l : list token) : list word :=
  match l with [] => [] | t :: r => match tk t with TEof => [] | _ => shown t :: upto r end end.
Definition stream (p : pst) : list word := upto (p_cur p :: p_toks p).
Definition att (p : pst) := (map fst (p_structs p), p_enums p, p_imports p, p_path p, p_sname p, p_fields p, p_packets p, p_depth p, p_unaligned p, p_bitmode p).
Definition good (p : pst) : Prop := Exists (fun t => tk t = TEof) (p_toks p) /\ (tk (p_cur p) = TEof -> upto (p_toks p) = []) /\
  tk (p_cur p) <> TError /\ word_texts (stream p).
Definition still (p q : pst) : Prop := p_cur q = p_cur p /\ p_toks q = p_toks p /\ att q = att p.
Lemma still_refl p : still p p. Proof. repeat split. Qed.
Lemma still_trans p q r : still p q -> still q r -> still p r.
Proof. intros (A & B & C) (D & E & F). split; [|split]; congruence. Qed.
Lemma still_stream p q : still p q -> stream q = stream p.
Proof. intros (A & B & _). unfold stream. now rewrite A, B. Qed.
Lemma still_good p q : still p q -> good p -> good q.
Proof. intros S (A & B & C & D). pose proof (still_stream _ _ S) as X. destruct S as (Y & Z & _). unfold good. rewrite X, Y, Z. auto. Qed.

Lemma upto_eof t l : tk t = TEof -> upto (t :: l) = []. Proof. intros K. cbn. now rewrite K. Qed.
Lemma upto_more t l : tk t <> TEof -> upto (t :: l) = shown t :: upto l. Proof. intros K. cbn. destruct (tk t); congruence || reflexivity. Qed.
Lemma next_stream toks : Exists (fun t => tk t = TEof) toks -> forall l o, next_token toks false = (l, o, false) ->
  exists t, o = Some t /\ upto (t :: l) = upto toks /\ Exists (fun t => tk t = TEof) l /\ (tk t = TEof -> upto l = []) /\ tk t <> TError.
Proof.
  assert (B : forall l x o, next_token l true = (x, o, false) -> False).
  { clear. induction l as [|t l IH]; intros x o H; [discriminate|]. cbn in H. destruct (tk t); try discriminate H. now apply IH in H. }
  intros X l o H. destruct toks as [|t r]; [inversion X|]. cbn in H.
  destruct (kind_eq_dec (tk t) TEof) as [K|K].
  - rewrite K in H. injection H as <- <-. exists t. split; [reflexivity|]. rewrite !upto_eof by auto. split; [reflexivity|]. split; [exact X|]. split; [auto|congruence].
  - destruct (kind_eq_dec (tk t) TError) as [K2|K2]; [rewrite K2 in H; now apply B in H|].
    assert (H' : (r, Some t, false) = (l, o, false)) by (destruct (tk t); congruence || exact H). injection H' as <- <-. exists t. split; [reflexivity|]. split; [reflexivity|].
    split; [|split; [contradiction|auto]]. inversion X; subst; [contradiction|auto].
Qed.
Lemma texts_suffix a b : word_texts (a ++ b) -> word_texts b. Proof. intros H s I. apply H. apply in_or_app. auto. Qed.
Lemma advance_stream p a q : advance p = POk a q -> p_err q = false -> Exists (fun t => tk t = TEof) (p_toks p) -> word_texts (upto (p_toks p)) ->
  good q /\ att q = att p /\ p_prev q = p_cur p /\ stream q = upto (p_toks p).
Proof.
  intros H E X W. unfold advance in H. destruct (next_token (p_toks p) false) as ((l & o) & b) eqn:NT.
  injection H as _ H. destruct b; [subst q; discriminate E|].
  destruct (next_stream _ X _ _ NT) as (t & -> & U & XL & K1 & K2). subst q. cbn. split; [|auto].
  split; [exact XL|]. split; [exact K1|]. split; [exact K2|]. unfold stream. cbn. rewrite <- U in W. exact W.
Qed.
Lemma advance_inv p a q : advance p = POk a q -> p_err q = false -> good p ->
  good q /\ att q = att p /\ p_prev q = p_cur p /\ stream p = (if is_kind TEof (p_cur p) then [] else [shown (p_cur p)]) ++ stream q.
Proof.
  intros H E (X & K & NE & W).
  assert (W' : word_texts (upto (p_toks p))).
  { destruct (kind_eq_dec (tk (p_cur p)) TEof) as [K1|K1]; [rewrite K by auto; intros s []|]. unfold stream in W. rewrite upto_more in W by auto. now apply texts_cons in W. }
  destruct (advance_stream p a q H E X W') as (G & A & PV & S). split; [auto|]. split; [auto|]. split; [auto|]. rewrite S. unfold stream, is_kind.
  destruct (kind_eq_dec (tk (p_cur p)) TEof) as [K1|K1]; [rewrite upto_eof by auto; now rewrite K by auto|now rewrite upto_more by auto].
Qed.
Definition ate (p q : pst) (G : list word -> Prop) : Prop := exists ws, stream p = ws ++ stream q /\ G ws.
Lemma ate_step p r q w (G : list word -> Prop) : stream p = w ++ stream r -> ate r q (fun ws => G (w ++ ws)) -> ate p q G.
Proof. intros S (ws & S2 & X). exists (w ++ ws). split; [now rewrite S, S2, app_assoc|exact X]. Qed.
Lemma ate_end p (G : list word -> Prop) : G [] -> ate p p G. Proof. intros X. exists []. auto. Qed.
Lemma ate_same p q (G : list word -> Prop) : stream q = stream p -> G [] -> ate p q G. Proof. intros S X. exists []. rewrite S. auto. Qed.
Lemma ate_impl p q (G H : list word -> Prop) : (forall ws, G ws -> H ws) -> ate p q G -> ate p q H.
Proof. intros I (ws & S & X). exists ws. auto. Qed.

Lemma bind_inv {A B} (m : par A) (k : A -> par B) p b q : pbind m k p = POk b q -> p_err q = false -> (forall a, sticky (k a)) ->
  exists a r, m p = POk a r /\ p_err r = false /\ k a r = POk b q.
Proof.
  intros H E S. unfold pbind in H. destruct (m p) as [a r| |] eqn:M; try discriminate. exists a, r. split; [reflexivity|]. split; [|exact H].
  destruct (p_err r) eqn:R; [|reflexivity]. pose proof (S a r b q R H). congruence.
Qed.
Lemma no_err {A} (m : par A) p a q : sticky m -> m p = POk a q -> p_err q = false -> p_err p = false.
Proof. intros S H E. destruct (p_err p) eqn:R; [|reflexivity]. pose proof (S p a q R H). congruence. Qed.
Lemma is_kind_iff k t : is_kind k t = true <-> tk t = k.
Proof. unfold is_kind. destruct (kind_eq_dec _ _); intuition congruence. Qed.
Lemma consume_inv k p a q : consume k p = POk a q -> p_err q = false -> good p -> k <> TEof ->
  good q /\ att q = att p /\ p_prev q = p_cur p /\ tk (p_cur p) = k /\ stream p = [(k, if textual k then ttext (p_cur p) else [])] ++ stream q.
Proof.
  intros H E G NK. unfold consume, at_kind in H. unfold pbind, get in H. destruct (is_kind k (p_cur p)) eqn:K; [|injection H as _ <-; discriminate E].
  apply is_kind_iff in K. destruct (advance_inv _ _ _ H E G) as (G2 & A & P & S). repeat (split; [assumption|]). rewrite S. unfold is_kind, shown. rewrite K.
  destruct (kind_eq_dec k TEof); [contradiction|reflexivity].
Qed.
Lemma advance_kind k p a q : tk (p_cur p) = k -> k <> TEof -> advance p = POk a q -> p_err q = false -> good p ->
  good q /\ att q = att p /\ p_prev q = p_cur p /\ stream p = [(k, if textual k then ttext (p_cur p) else [])] ++ stream q.
Proof.
  intros K NK H E G. destruct (advance_inv _ _ _ H E G) as (G2 & A & P & S). repeat (split; [assumption|]). rewrite S. unfold is_kind, shown. rewrite K.
  destruct (kind_eq_dec k TEof); [contradiction|reflexivity].
Qed.
Lemma error_inv p a q : error p = POk a q -> p_err q = false -> False.
Proof. intros H. injection H as _ <-. discriminate. Qed.
Lemma emit_inv l p a q : emit l p = POk a q -> still p q. Proof. intros H. injection H as _ <-. repeat split. Qed.
Lemma write_inv o l p a q : write_at o l p = POk a q -> still p q. Proof. intros H. injection H as _ <-. destruct (_ <? _); repeat split. Qed.
Lemma name_inv s p a q : add_name s p = POk a q -> still p q.
Proof. intros H. unfold add_name in H. destruct (strtab_add _ _). injection H as _ <-. repeat split. Qed.
Lemma when_inv b m p a q : when b m p = POk a q -> (b = true /\ m p = POk a q) \/ (b = false /\ q = p).
Proof. intros H. destruct b; [now left|]. injection H as _ <-. now right. Qed.
Lemma result_inv {A} (r : result A) p a q : of_result r p = POk a q -> r = Ok a /\ q = p.
Proof. destruct r; intros H; [injection H as -> <-; auto|discriminate]. Qed.

Global Hint Resolve path_sticky load_sticky expr_sticky token_sticky u32_sticky i64_sticky double_sticky poly_sticky spline_sticky skip_sticky pad_sticky
  bits_sticky zero_sticky args_sticky decorator_sticky decorators_sticky docs_sticky range_sticky shape_sticky const_sticky basic_sticky enum_field_sticky
  string_sticky struct_field_sticky field_sticky value_sticky patch_sticky head_sticky tail_sticky enum_loop_sticky enum_sticky struct_sticky packet_sticky : stk.
Lemma prec_stk E f n : sticky (parse_precedence E f n). Proof. apply prec_sticky. Qed.
Lemma infix_stk E f n t : sticky (infix_loop E f n t). Proof. apply prec_sticky. Qed.
Lemma field_stk E f : sticky (parse_field E f). Proof. apply stmt_sticky. Qed.
Lemma if_stk E f : sticky (parse_if E f). Proof. apply stmt_sticky. Qed.
Lemma block_stk E f : sticky (parse_block E f). Proof. apply stmt_sticky. Qed.
Lemma loop_stk E f : sticky (block_loop E f). Proof. apply stmt_sticky. Qed.
Lemma case_stk E f l c j d : sticky (case_loop E f l c j d). Proof. apply stmt_sticky. Qed.
Lemma top_stk E f : sticky (top_level E f). Proof. apply top_sticky. Qed.
Lemma decs_stk E f : sticky (top_decorators E f). Proof. apply top_sticky. Qed.
Lemma import_stk E f : sticky (parse_import E f). Proof. apply top_sticky. Qed.
Global Hint Resolve prec_stk infix_stk field_stk if_stk block_stk loop_stk case_stk top_stk decs_stk import_stk : stk.
Ltac stk := repeat first [st1 | solve [auto 2 with stk]].

(** One step of a run without errors: names the value, the state and what is known of it *)
Ltac prim M := lazymatch type of M with
  | get _ _ = POk _ _ => injection M as <- <-
  | ret _ _ = POk _ _ => injection M as <- <-
  | at_kind _ _ = POk _ _ => injection M as <- <-
  | here _ = POk _ _ => injection M as <- <-
  | emit _ _ = POk _ _ => apply emit_inv in M
  | write_at _ _ _ = POk _ _ => apply write_inv in M
  | add_name _ _ = POk _ _ => apply name_inv in M
  | number_i64 _ _ = POk _ _ => let Q := fresh "Q" in apply result_inv in M as (M & Q); subst
  | of_result _ _ = POk _ _ => let Q := fresh "Q" in apply result_inv in M as (M & Q); subst
  | error _ = POk _ _ => exfalso; eapply error_inv; [exact M|assumption]
  | no_fuel _ = POk _ _ => discriminate M
  | undef _ _ = POk _ _ => discriminate M
  | _ => idtac
  end.
Ltac bnd H := lazymatch type of H with
  | pbind ?m ?k ?p = POk ?a ?q =>
    let b := fresh "v" in let r := fresh "r" in let M := fresh "M" in let E := fresh "EE" in
    apply bind_inv in H; [destruct H as (b & r & M & E & H); prim M | assumption | intro; stk]
  end.
Ltac bnds H := repeat bnd H.
Ltac con M := let G := fresh "G" in let A := fresh "A" in let P := fresh "P" in let K := fresh "K" in let SS := fresh "SS" in
  apply consume_inv in M; [destruct M as (G & A & P & K & SS); cbn [textual] in SS | assumption | assumption | discriminate].
Ltac adv M := let G := fresh "G" in let A := fresh "A" in let P := fresh "P" in let SS := fresh "SS" in
  apply advance_inv in M; [destruct M as (G & A & P & SS) | assumption | assumption].
Ltac advk M K := let G := fresh "G" in let A := fresh "A" in let P := fresh "P" in let SS := fresh "SS" in
  let K' := fresh "K" in pose proof K as K'; lazymatch type of K' with is_kind _ _ = true => apply is_kind_iff in K' | _ => idtac end;
  apply (advance_kind _ _ _ _ K') in M; [destruct M as (G & A & P & SS); cbn [textual] in SS | discriminate | assumption | assumption].
(** A step that reads nothing *)
Ltac calm_step S := let G := fresh "G" in let A := fresh "A" in let SS := fresh "SS" in
  match type of S with still ?p ?q => assert (G : good q) by (eapply still_good; eauto); pose proof (proj2 (proj2 S)) as A; pose proof (still_stream _ _ S) as SS end; clear S.
Lemma ate_still p r q (G : list word -> Prop) : stream r = stream p -> ate r q G -> ate p q G.
Proof. intros S (ws & S2 & X). exists ws. rewrite <- S. auto. Qed.
Ltac chain := lazymatch goal with
  | |- ate ?p ?p _ => apply ate_end
  | |- ate ?p ?q _ => first [ match goal with S : stream p = _ ++ stream _ |- _ => eapply (ate_step _ _ _ _ _ S) | S : stream ?r = stream p |- _ => eapply (ate_still _ _ _ _ S) end; chain | idtac ]
  end.
Definition reads {A} (m : par A) (G : A -> list word -> Prop) : Prop := forall p a q, m p = POk a q -> p_err q = false -> good p ->
  good q /\ att q = att p /\ ate p q (G a).
Tactic Notation "sub" hyp(M) uconstr(L) := let G := fresh "G" in let A := fresh "A" in let w := fresh "w" in let SS := fresh "SS" in let R := fresh "R" in
  let X := fresh "X" in pose proof (L _ _ _ M) as X; specialize (X ltac:(assumption) ltac:(assumption)); destruct X as (G & A & w & SS & R); clear M.

(** ** Expressions *)
Lemma path_reads f : forall n, reads (path_loop f n) (fun _ ws => selectors ws).
Proof.
  induction f as [|f IH]; intros n p a q H E G; [discriminate|]. cbn [path_loop] in H. bnd H. destruct (is_kind TDot (p_cur p)) eqn:K.
  - bnd H. advk M K. bnd H. bnd H. con M.
    destruct (256 <=? _); [bnd H|]. sub H (IH (n ++ [46] ++ ttext (p_cur r))). split; [auto|]. split; [congruence|]. chain. cbn [app]. rewrite app_nil_r. now constructor.
  - injection H as <- <-. split; [auto|]. split; [auto|]. chain. constructor.
Qed.
Lemma load_reads f n : reads (load_name f n) (fun _ ws => selectors ws).
Proof.
  intros p a q H E G. unfold load_name in H. bnd H. destruct (is_kind TDot (p_cur p)) eqn:K.
  - destruct (256 <=? _); [bnd H|]. bnd H. sub M (path_reads f n). destruct v as [m|].
    + bnd H. calm_step M. bnd H. calm_step M. prim H. split; [auto|]. split; [congruence|]. chain. now rewrite app_nil_r.
    + prim H. split; [auto|]. split; [congruence|]. chain. now rewrite app_nil_r.
  - bnd H. calm_step M. bnd H. calm_step M. prim H. split; [auto|]. split; [congruence|]. chain. constructor.
Qed.
Lemma expression_some ws : expression ws -> ws <> [].
Proof. induction 1; try discriminate. destruct ws; [contradiction|discriminate]. Qed.
Lemma fn_named t g : function1 t = Some g -> exists f, In f functions /\ tk t = TIdentifier /\ ttext t = chars f.
Proof.
  unfold function1, match_keyword. intros H.
  repeat match type of H with (if ?b then _ else _) = _ => destruct b eqn:?; [
    match goal with X : (is_kind TIdentifier t && same_text _ (chars ?f)) = true |- _ => apply andb_true_iff in X as (X1 & X2);
      apply is_kind_iff in X1; apply same_text_spec in X2; exists f; split; [cbn; tauto|auto] end |] end. discriminate.
Qed.
Lemma fn_unnamed t : function1 t = None -> tk t = TIdentifier -> match_keyword t "pow" = false -> ~ In (ttext t) (map chars ("pow"%string :: functions)).
Proof.
  unfold function1, match_keyword. intros H K. rewrite (proj2 (is_kind_iff _ _) K) in *. cbn [andb] in *. intros NP I.
  repeat match type of H with (if ?b then _ else _) = _ => destruct b eqn:?; [discriminate|] end. cbn [map functions In] in I.
  repeat (destruct I as [I|I]; [symmetry in I; apply same_text_spec in I; congruence|]). exact I.
Qed.
Lemma infix_kind k r : rule k = Ok r -> 1 <= snd r -> In k operators /\ textual k = false.
Proof. destruct k; cbn; intros H; try discriminate; injection H as <-; cbn; intros L; try lia; intuition. Qed.
Lemma prec_reads E f : (forall n, 1 <= n -> reads (parse_precedence E f n) (fun _ ws => expression ws)) /\
  (forall n t, 1 <= n -> reads (infix_loop E f n t) (fun _ ws => forall lw, expression lw -> expression (lw ++ ws))).
Proof.
  induction f as [|f (P & I)]; (split; [intros n L|intros n t0 L]); intros p a q H E0 G; try discriminate H.
  - cbn [parse_precedence] in H. bnd H. adv M. bnd H. bnd H. rename M into MR. rewrite P0 in *. set (t := p_cur p) in *. destruct v0 as (ru & rp). cbn [fst] in H.
    destruct ru as [[| |]|].
    + (* group *) assert (K : tk t = TLparen) by (destruct (tk t); cbn in MR; congruence). unfold is_kind, shown in SS. rewrite K in SS. cbn [kind_eq_dec kind_rect kind_rec textual] in SS.
      bnd H. adv M. bnd H. sub M (P 1 ltac:(lia)). bnd H. con M. sub H (I n _ L).
      split; [auto|]. split; [congruence|]. destruct (is_kind TEof (p_cur r)) eqn:KE.
      { exfalso. apply is_kind_iff in KE. assert (S0 : stream r = []) by (unfold stream; now apply upto_eof). rewrite S0 in SS0. cbn [app] in SS0. rewrite <- SS0 in SS1.
        symmetry in SS1. apply app_eq_nil in SS1 as (-> & _). now apply expression_some in R. }
      chain. cbn [app]. rewrite app_nil_r. 
      match goal with |- expression ?x => replace x with ((mark TLparen :: shown (p_cur r) :: w ++ [mark TRparen]) ++ w0) by (cbn [app]; now rewrite <- app_assoc) end.
      apply R0. now constructor.
    + (* unary *) assert (K : In (tk t) [TMinus; TBang; TTilde] /\ textual (tk t) = false) by (destruct (tk t); cbn in MR; try congruence; cbn; tauto). destruct K as (K & KT).
      unfold is_kind, shown in SS. rewrite KT in SS. destruct (kind_eq_dec (tk t) TEof) as [KE|_]; [rewrite KE in K; cbn in K; intuition discriminate|].
      bnd H. bnd H. adv M. bnd H. sub M (P 11 ltac:(lia)). destruct (unary_code _ _) as (c & ty). bnd H. calm_step M. sub H (I n _ L).
      split; [auto|]. split; [congruence|]. destruct (is_kind TEof (p_cur r)) eqn:KE.
      { exfalso. apply is_kind_iff in KE. assert (S0 : stream r = []) by (unfold stream; now apply upto_eof). rewrite S0 in SS0. cbn [app] in SS0. rewrite <- SS0 in SS1.
        symmetry in SS1. apply app_eq_nil in SS1 as (-> & _). now apply expression_some in R. }
      chain. cbn [app]. rewrite app_nil_r. apply (R0 (mark (tk t) :: shown (p_cur r) :: w)). now constructor.
    + (* primary *) bnd H. rename M into MM. rename v into ty.
      assert (PR : reads (match tk t with
        | TNumber =>
          if is_float_literal (ttext t)
          then emit ([0x61] ++ le8 (parse_number_double E (ttext t))) ;; ret TyFloat
          else let% v := number_i64 (ttext t) in emit ([0x61] ++ le8 (ofZ 8 v)) ;; ret TyInt
        | TTrue => emit ([0x61] ++ le8 1) ;; ret TyInt
        | TFalse => emit ([0x61] ++ le8 0) ;; ret TyInt
        | TSelf => emit [0x64] ;; ret TyUnknown
        | _ =>
          match function1 t with
          | Some fn =>
            consume TLparen ;;
            let% x := parse_precedence E f 1 in
            consume TRparen ;;
            let (c, ty) := fn x in
            emit c ;; ret ty
          | None =>
            if match_keyword t "pow" then
              consume TLparen ;;
              let% x := parse_precedence E f 1 in
              when (is_int x) (emit [0x90]) ;;
              consume TComma ;;
              let% y := parse_precedence E f 1 in
              when (is_int y) (emit [0x90]) ;;
              consume TRparen ;;
              emit [0x89] ;; ret TyFloat
            else load_name f (ttext t)
          end
        end) (fun _ ws => expression (shown t :: ws))).
      { clearbody t. clear - P MR. intros p a q H E0 G.
        assert (K : In (tk t) [TNumber; TTrue; TFalse; TSelf; TIdentifier]) by (destruct (tk t); cbn in MR; try congruence; cbn; tauto).
        unfold shown. cbn in K. destruct K as [K|[K|[K|[K|[K|[]]]]]]; rewrite <- K in *; cbn [textual].
        - destruct (is_float_literal _).
          + bnd H. calm_step M. prim H. split; [auto|]. split; [auto|]. chain. constructor.
          + bnd H. clear M. bnd H. calm_step M. prim H. split; [auto|]. split; [auto|]. chain. constructor.
        - bnd H. calm_step M. prim H. split; [auto|]. split; [auto|]. chain. constructor. cbn; auto.
        - bnd H. calm_step M. prim H. split; [auto|]. split; [auto|]. chain. constructor. cbn; auto.
        - bnd H. calm_step M. prim H. split; [auto|]. split; [auto|]. chain. constructor. cbn; auto.
        - destruct (function1 t) as [fn|] eqn:FN.
          + destruct (fn_named _ _ FN) as (fname & IF & _ & ->). bnd H. con M. bnd H. sub M (P 1 ltac:(lia)). bnd H. con M. destruct (fn _) as (c & y). bnd H. calm_step M. prim H.
            split; [auto|]. split; [congruence|]. chain. cbn [app]. now apply ex_call.
          + destruct (match_keyword t "pow") eqn:PW.
            * unfold match_keyword in PW. apply andb_true_iff in PW as (_ & PW). apply same_text_spec in PW. rewrite PW.
              bnd H. con M. bnd H. sub M (P 1 ltac:(lia)). bnd H.
              assert (SR : still r0 r1) by (apply when_inv in M as [(_ & M)|(_ & ->)]; [now apply emit_inv in M|apply still_refl]). clear M. calm_step SR.
              bnd H. con M. bnd H. sub M (P 1 ltac:(lia)). bnd H.
              assert (SR2 : still r3 r4) by (apply when_inv in M as [(_ & M)|(_ & ->)]; [now apply emit_inv in M|apply still_refl]). clear M. calm_step SR2.
              bnd H. con M. bnd H. calm_step M. prim H. split; [auto|]. split; [congruence|]. chain. cbn [app]. now apply ex_pow.
            * sub H (load_reads f (ttext t)). split; [auto|]. split; [auto|]. chain. rewrite app_nil_r. apply ex_name; auto. apply fn_unnamed; auto. }
      sub MM PR. sub H (I n _ L). split; [auto|]. split; [congruence|].
      assert (KE : is_kind TEof t = false) by (unfold is_kind; destruct (kind_eq_dec (tk t) TEof) as [KE|]; [rewrite KE in MR; discriminate MR|reflexivity]).
      rewrite KE in SS. chain. cbn [app]. rewrite app_nil_r. apply (R0 (shown t :: w)). auto.
    + bnd H.
  - cbn [infix_loop] in H. bnd H. bnd H. rename M into MR. destruct (n <=? snd v) eqn:LN.
    + destruct (infix_kind _ _ MR) as (K & KT); [lia|]. bnd H. adv M. unfold is_kind, shown in SS. rewrite KT in SS.
      destruct (kind_eq_dec (tk (p_cur p)) TEof) as [KE|_]; [rewrite KE in K; cbn in K; intuition discriminate|].
      bnd H. sub M (P (snd v + 1) ltac:(lia)). destruct (binary_code _ _ _) as (c & ty). bnd H. calm_step M. sub H (I n _ L).
      split; [auto|]. split; [congruence|]. chain. cbn [app]. rewrite app_nil_r. intros lw EL.
      match goal with |- expression ?x => replace x with ((lw ++ mark (tk (p_cur p)) :: w) ++ w0) by (now rewrite <- app_assoc) end. apply R0. now apply ex_binary.
    + prim H. split; [auto|]. split; [auto|]. chain. intros lw EL. now rewrite app_nil_r.
Qed.
Lemma expression_reads E f : reads (parse_expression E f) (fun _ ws => expression ws).
Proof. apply prec_reads. lia. Qed.
