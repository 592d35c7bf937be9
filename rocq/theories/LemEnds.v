(** Compilation ends: fuel in proportion to the words of the files is enough. *)
From Coq Require Import Strings.String ZifyBool ZifyNat ZifyN.
From Verif Require Import Base ModelVM ModelImage ModelText SpecVM SpecText ModelNames ModelParse ModelSchema LemBase LemText LemParse.

Local Open Scope nat_scope.

(** ** Words left *)
Definition ended (l : list token) : Prop := exists a e, l = a ++ [e] /\ tk e = TEof /\ Forall (fun t => tk t <> TEof) a.
Definition at_end (p : pst) : bool := is_kind TEof (p_cur p).
Definition left_ (p : pst) : nat := if at_end p then 0 else length (p_toks p).

Lemma is_kind_eq k t : is_kind k t = true <-> tk t = k.
Proof. unfold is_kind. destruct kind_eq_dec; split; intros; congruence. Qed.
Lemma ended_tail t l : ended (t :: l) -> tk t <> TEof -> ended l.
Proof.
  intros (a & e & E & K & F) T. destruct a as [|x a]; cbn in E; injection E as -> E; [contradiction|].
  exists a, e. split; [exact E|]. split; [exact K|]. now apply Forall_inv_tail in F.
Qed.
Lemma ended_eof t l : ended (t :: l) -> tk t = TEof -> l = [].
Proof.
  intros (a & e & E & K & F) T. destruct a as [|x a]; cbn in E; injection E as -> E; [exact E|].
  apply Forall_inv in F. contradiction.
Qed.
Lemma ended_pos l : ended l -> 1 <= length l.
Proof. intros (a & e & -> & _). rewrite app_length. cbn. lia. Qed.

Lemma filter_len {A} (g : A -> bool) (l : list A) : length (filter g l) <= length l.
Proof. induction l as [|a l IH]; cbn; [lia|]. destruct (g a); cbn; lia. Qed.
Section Files.
  Variable E : env.
  Variable files : list (list N).

  (** Files not yet read *)
  Definition unread (ims : list (list N)) : nat := length (filter (fun f => negb (existsb (same_text f) ims)) files).
  Definition inv (p : pst) : Prop :=
    ended (p_toks p) /\ (at_end p = true -> length (p_toks p) = 1) /\ Forall text (p_imports p).
  Definition le_ (p q : pst) : Prop :=
    left_ q <= left_ p /\ (p_err p = true -> p_err q = true) /\ unread (p_imports q) <= unread (p_imports p).

  Lemma le_refl p : le_ p p.
  Proof. unfold le_. auto. Qed.
  Lemma le_trans p q r : le_ p q -> le_ q r -> le_ p r.
  Proof. unfold le_. intuition lia. Qed.

  Definition ok {A} (p : pst) (Q : A -> pst -> Prop) (r : pres A) : Prop :=
    match r with PFuel => False | PUb _ => True | POk a q => inv q /\ le_ p q /\ Q a q end.
  Definition any {A} (a : A) (q : pst) : Prop := True.

  Lemma bind_ok {A B} (m : par A) (k : A -> par B) p0 p Q R : ok p Q (m p) -> le_ p0 p ->
    (forall a q, inv q -> le_ p q -> le_ p0 q -> Q a q -> ok p0 R (k a q)) -> ok p0 R (pbind m k p).
  Proof.
    unfold pbind. intros M L K. destruct (m p) as [a q| |]; [|exact I|destruct M]. destruct M as (IQ & LQ & QQ).
    apply K; auto. eapply le_trans; eauto.
  Qed.
  Lemma ok_from {A} p0 p (Q R : A -> pst -> Prop) r : ok p Q r -> le_ p0 p -> (forall a q, inv q -> le_ p q -> Q a q -> R a q) -> ok p0 R r.
  Proof. destruct r; cbn; auto. intros (IQ & LQ & QQ) L K. split; [exact IQ|]. split; [eapply le_trans; eauto|auto]. Qed.
  Lemma ok_any {A} p (Q : A -> pst -> Prop) r : ok p Q r -> ok p any r.
  Proof. intros O. eapply ok_from; [exact O|apply le_refl|]. intros. exact I. Qed.

  Lemma ret_ok {A} (a : A) p0 p (R : A -> pst -> Prop) : inv p -> le_ p0 p -> R a p -> ok p0 R (ret a p).
  Proof. cbn. auto. Qed.
  Lemma get_ok {A} (f : pst -> A) p : inv p -> ok p (fun a q => a = f p /\ q = p) (get f p).
  Proof. cbn. intros. split; [auto|]. split; [apply le_refl|auto]. Qed.
  Lemma upd_ok f p : inv p -> inv (f p) -> le_ p (f p) -> ok p (fun _ q => q = f p) (upd_p f p).
  Proof. cbn. auto. Qed.
  Lemma undef_ok {A} u p0 p (R : A -> pst -> Prop) : ok p0 R (undef u p).
  Proof. exact I. Qed.
  Lemma result_ok {A} (r : result A) p : inv p -> ok p (fun a q => r = Ok a /\ q = p) (of_result r p).
  Proof. destruct r; cbn; auto. intros. split; [auto|]. split; [apply le_refl|auto]. Qed.
  Lemma number_ok s p : inv p -> ok p (fun _ q => q = p) (number_i64 s p).
  Proof. intros IP. eapply ok_from; [apply result_ok; auto|apply le_refl|]. intros a q _ _ (_ & X). exact X. Qed.

  (** States that differ from [p] in nothing that counts *)
  Definition same (p q : pst) : Prop :=
    p_toks q = p_toks p /\ p_cur q = p_cur p /\ p_imports q = p_imports p /\ (p_err p = true -> p_err q = true).
  Lemma same_inv p q : same p q -> inv p -> inv q.
  Proof. unfold inv, at_end. intros (-> & -> & -> & _). auto. Qed.
  Lemma same_le p q : same p q -> le_ p q.
  Proof. unfold le_, left_, at_end. intros (-> & -> & -> & X). auto. Qed.
  Lemma same_upd f p : inv p -> same p (f p) -> ok p (fun _ q => same p q /\ q = f p) (upd_p f p).
  Proof. intros IP S. cbn. split; [eapply same_inv; eauto|]. split; [now apply same_le|auto]. Qed.
  Lemma error_ok p : inv p -> ok p (fun _ q => same p q /\ p_err q = true) (error p).
  Proof. intros IP. cbn. assert (S : same p (set_err p)) by (repeat split; auto). split; [eapply same_inv; eauto|]. split; [now apply same_le|auto]. Qed.
  Lemma emit_ok l p : inv p -> ok p (fun _ q => same p q) (emit l p).
  Proof. intros IP. eapply ok_from; [apply same_upd; [auto|repeat split; auto]|apply le_refl|]. intros ? ? _ _ (X & _). exact X. Qed.
  Lemma write_ok off l p : inv p -> ok p (fun _ q => same p q) (write_at off l p).
  Proof.
    intros IP. eapply ok_from; [apply same_upd; [auto|]|apply le_refl|].
    - destruct (_ <? _)%N; repeat split; auto.
    - intros ? ? _ _ (X & _). exact X.
  Qed.
  Lemma add_ok s p : inv p -> ok p (fun _ q => same p q) (add_name s p).
  Proof.
    intros IP. unfold add_name. destruct (strtab_add _ _) as (strs & id).
    assert (S : same p (set_strs strs p)) by (repeat split; auto). cbn. split; [eapply same_inv; eauto|]. split; [now apply same_le|auto].
  Qed.
  Lemma at_ok k p : inv p -> ok p (fun b q => q = p /\ (b = true <-> tk (p_cur p) = k)) (at_kind k p).
  Proof. intros IP. eapply ok_from; [apply get_ok; auto|apply le_refl|]. intros a q _ _ (-> & ->). split; [reflexivity|]. apply is_kind_eq. Qed.

  (** What advance does to the words *)
  Lemma next_ok l bad : ended l -> forall l' o b, next_token l bad = (l', o, b) ->
    ended l' /\ length l' <= length l /\ (exists t, o = Some t /\ (tk t = TEof -> length l' = 1) /\ (tk t <> TEof -> length l' < length l)).
  Proof.
    revert bad. induction l as [|t l IH]; intros bad D l' o b X.
    - exfalso. pose proof (ended_pos _ D). cbn in H. lia.
    - cbn [next_token] in X. destruct (kind_eq_dec (tk t) TError) as [Q|Q].
      + rewrite Q in X. assert (D' : ended l) by (apply (ended_tail t); auto; congruence).
        destruct (IH _ D' _ _ _ X) as (A & B & t' & C1 & C2 & C3). split; [auto|]. cbn [length]. split; [lia|].
        exists t'. split; [auto|]. split; [auto|]. intros T. specialize (C3 T). lia.
      + destruct (kind_eq_dec (tk t) TEof) as [Q2|Q2].
        * rewrite Q2 in X. injection X as <- <- <-. pose proof (ended_eof _ _ D Q2) as ->. split; [auto|]. split; [auto|].
          exists t. split; [auto|]. split; [auto|]. intros; contradiction.
        * assert (Y : next_token (t :: l) bad = (l, Some t, bad)) by (cbn [next_token]; destruct (tk t); congruence).
          cbn [next_token] in Y. rewrite Y in X. injection X as <- <- <-. split; [eapply ended_tail; eauto|]. cbn [length].
          split; [lia|]. exists t. split; [auto|]. split; [intros; contradiction|]. intros. lia.
  Qed.
  Lemma advance_ok p : inv p ->
    ok p (fun _ q => p_prev q = p_cur p /\ (at_end p = false -> left_ q < left_ p) /\ p_imports q = p_imports p) (advance p).
  Proof.
    intros (D & Z & F). unfold advance. destruct (next_token (p_toks p) false) as ((l & o) & b) eqn:X.
    destruct (next_ok _ _ D _ _ _ X) as (D' & L' & t & -> & C1 & C2).
    set (q := set_tok l t (p_cur p) p).
    assert (R : inv q /\ le_ p q /\ p_prev q = p_cur p /\ (at_end p = false -> left_ q < left_ p) /\ p_imports q = p_imports p).
    { assert (IQ : inv q).
      { split; [exact D'|]. split; [|exact F]. unfold at_end. cbn [q p_cur set_tok p_toks]. rewrite is_kind_eq. auto. }
      assert (LQ : left_ q <= left_ p /\ (at_end p = false -> left_ q < left_ p)).
      { unfold left_. destruct (at_end q) eqn:AQ.
        - split; [lia|]. intros ->. pose proof (ended_pos _ D). lia.
        - assert (T : tk t <> TEof) by (intros T; unfold at_end in AQ; cbn [q p_cur set_tok] in AQ; apply is_kind_eq in T; congruence).
          specialize (C2 T). cbn [q p_toks set_tok]. pose proof (ended_pos _ D'). destruct (at_end p).
          + specialize (Z eq_refl). lia.
          + split; [lia|]. intros _. lia. }
      split; [exact IQ|]. split; [split; [apply LQ|split; auto]|]. split; [reflexivity|]. split; [apply LQ|reflexivity]. }
    destruct b; [|exact R]. destruct R as (R1 & R2 & R3 & R4 & R5).
    match goal with |- context [set_errs ?l _] => assert (S : same q (set_errs l q)) by (repeat split; auto) end.
    split; [eapply same_inv; eauto|]. split; [eapply le_trans; [exact R2|now apply same_le]|]. split; [exact R3|]. split; [exact R4|exact R5].
  Qed.
  Lemma consume_ok k p : k <> TEof -> inv p ->
    ok p (fun _ q => (left_ q < left_ p \/ p_err q = true) /\ p_imports q = p_imports p) (consume k p).
  Proof.
    intros K IP. unfold consume. eapply bind_ok; [apply at_ok; auto|apply le_refl|]. intros b q IQ _ LQ (-> & B).
    destruct b.
    - eapply ok_from; [apply advance_ok; auto|apply le_refl|]. intros _ q _ _ (_ & A & I). split; [left|exact I]. apply A.
      unfold at_end. destruct (is_kind TEof (p_cur p)) eqn:X; auto. apply is_kind_eq in X. destruct B as (B & _). specialize (B eq_refl). congruence.
    - eapply ok_from; [apply error_ok; auto|apply le_refl|]. intros _ q _ _ ((_ & _ & S & _) & X). auto.
  Qed.
  Lemma when_ok b m p : inv p -> (b = true -> ok p any (m p)) -> ok p any (when b m p).
  Proof. intros IP M. destruct b; [auto|]. cbn. split; [auto|]. split; [apply le_refl|exact I]. Qed.

  Lemma not_end p k : tk (p_cur p) = k -> k <> TEof -> at_end p = false.
  Proof. intros T K. unfold at_end. destruct (is_kind TEof (p_cur p)) eqn:X; auto. apply is_kind_eq in X. congruence. Qed.
  Lemma at_true k p : inv p -> k <> TEof -> ok p (fun b q => q = p /\ (b = true -> at_end p = false)) (at_kind k p).
  Proof. intros IP K. eapply ok_from; [apply at_ok; auto|apply le_refl|]. intros b q _ _ (-> & B). split; [auto|]. intros T. eapply not_end; [apply B, T|auto]. Qed.

  Ltac lsolve := first [assumption | apply le_refl | eapply le_trans; eassumption | unfold le_ in *; intuition lia].
  Ltac prim := solve [first [apply at_true; [|discriminate] | apply get_ok | apply emit_ok | apply write_ok | apply add_ok | apply error_ok
    | apply consume_ok; [discriminate|] | apply advance_ok | apply number_ok | apply result_ok
    | match goal with H : context [ok] |- _ => apply H end]; auto; try lia].
  Ltac fin := first [exact I | now auto | idtac].
  Ltac st1 :=
    cbv beta;
    match goal with
    | |- ok _ _ (pbind _ _ _) => first [eapply bind_ok; [prim|lsolve|cbv beta; intros ? ? ? ? ? ?] | eapply (bind_ok _ _ _ _ any); [|lsolve|intros ? ? ? ? ? _]]
    | H : _ /\ _ |- _ => destruct H
    | H : same _ _ |- _ => clear H
    | x : unit |- _ => destruct x
    | |- ok _ _ (ret _ _) => apply ret_ok; [assumption|lsolve|fin]
    | |- ok _ _ (undef _ _) => exact I
    | |- ok _ any (when _ _ ?p) => apply (ok_from _ p any any); [apply when_ok; [assumption|intros ?]|lsolve|intros; exact I]
    | |- ok _ _ ((if ?b then _ else _) _) => destruct b eqn:?
    | |- ok _ _ ((match ?x with _ => _ end) _) => destruct x eqn:?
    | |- ok _ any _ => eapply ok_from; [prim|lsolve|intros; exact I]
    end.
  Ltac st := repeat (st1; subst).

  Lemma path_ok f : forall s p, inv p -> left_ p < f -> ok p any (path_loop f s p).
  Proof.
    induction f as [|f IH]; intros s p IP L; [lia|]. cbn [path_loop]. st.
    eapply ok_from; [apply IH; auto|lsolve|intros; exact I]. unfold le_ in *. intuition lia.
  Qed.
  Lemma load_ok f s p : inv p -> left_ p < f -> ok p any (load_name f s p).
  Proof.
    intros IP L. unfold load_name. pose proof (path_ok f). st.
  Qed.
  Ltac left_lia := unfold le_ in *; intuition lia.
  Ltac tail_with L := eapply ok_from; [apply L; auto; try left_lia|lsolve|intros; exact I].
  Lemma prec_ok f : (forall lv p, (1 <= lv)%N -> inv p -> left_ p < f -> ok p any (parse_precedence E f lv p)) /\
    (forall lv t p, (1 <= lv)%N -> inv p -> left_ p < f -> ok p any (infix_loop E f lv t p)).
  Proof.
    induction f as [|f (IP & IL)]; (split; [intros lv p LV I0 L|intros lv t p LV I0 L]); try lia; cbn [parse_precedence infix_loop].
    - eapply bind_ok; [apply advance_ok; auto|apply le_refl|]. intros _ q I1 L1 _ (PV & AD & _).
      eapply bind_ok; [apply get_ok; auto|exact L1|]. intros t q2 _ _ _ (-> & ->). rewrite PV.
      eapply bind_ok; [apply result_ok; auto|exact L1|]. intros r q3 _ _ _ (RR & ->).
      destruct (at_end p) eqn:EN.
      + unfold at_end in EN. apply is_kind_eq in EN. rewrite EN in RR. cbn in RR. injection RR as <-. cbn [fst]. st.
      + specialize (AD eq_refl). assert (LT : left_ q < f) by lia. destruct (fst r) as [[| |]|]; [| | |st].
        * st; first [tail_with IP|tail_with IL].
        * st; first [tail_with IP|tail_with IL].
        * pose proof (load_ok f). eapply (bind_ok _ _ _ _ any); [|exact L1|].
          -- assert (D : ok q any ((match function1 (p_cur p) with
              | Some fn => consume TLparen ;; let% x := parse_precedence E f 1 in consume TRparen ;; let (c, ty) := fn x in emit c ;; ret ty
              | None =>
                if match_keyword (p_cur p) "pow" then
                  consume TLparen ;; let% x := parse_precedence E f 1 in when (is_int x) (emit [144%N]) ;; consume TComma ;;
                  let% y := parse_precedence E f 1 in when (is_int y) (emit [144%N]) ;; consume TRparen ;; emit [137%N] ;; ret TyFloat
                else load_name f (ttext (p_cur p))
              end) q)) by (st; try (tail_with IP)).
             destruct (tk (p_cur p)); first [exact D | st].
          -- intros ty q2 I2 L2 L3 _. tail_with IL.
    - eapply bind_ok; [apply get_ok; auto|apply le_refl|]. intros k q2 _ _ _ (-> & ->).
      eapply bind_ok; [apply result_ok; auto|apply le_refl|]. intros r q3 _ _ _ (RR & ->).
      destruct (_ <=? _)%N eqn:C; [|st].
      assert (NE : at_end p = false).
      { unfold at_end. destruct (is_kind TEof (p_cur p)) eqn:X; auto. apply is_kind_eq in X. rewrite X in RR. cbn in RR. injection RR as <-. cbn in C. lia. }
      st; first [tail_with IP|tail_with IL].
  Qed.
  Lemma expression_ok f p : inv p -> left_ p < f -> ok p any (parse_expression E f p).
  Proof. intros. apply prec_ok; auto; lia. Qed.

  (** ** Fields *)
  Definition prog (p q : pst) : Prop := left_ q < left_ p \/ p_err q = true.
  Lemma prog_then {A} p q (r : pres A) : prog p q -> le_ p q -> ok q any r -> ok p (fun _ x => prog p x) r.
  Proof.
    intros P L O. eapply ok_from; [exact O|exact L|]. intros a x _ LX _. unfold prog, le_ in *. destruct P; [left; lia|right; tauto].
  Qed.
  Lemma take_number_ok p : inv p -> ok p any (take_number p).
  Proof. intros IP. unfold take_number. st. Qed.
  Lemma take_u32_ok p : inv p -> ok p any (take_u32 p).
  Proof. intros IP. pose proof take_number_ok. unfold take_u32. st. Qed.
  Lemma take_i64_ok p : inv p -> ok p any (take_i64 p).
  Proof. intros IP. pose proof take_number_ok. unfold take_i64. st. Qed.
  Lemma take_double_ok p : inv p -> ok p any (take_double E p).
  Proof. intros IP. pose proof take_number_ok. unfold take_double. st. Qed.
  Lemma range_ok op mn mx p : inv p -> ok p any (emit_range_check E op mn mx p).
  Proof.
    intros IP. unfold emit_range_check. cbv zeta beta. assert (D : ok p any (emit [66%N; op] p)) by st.
    repeat match goal with |- ok _ _ ((match ?x with _ => _ end) _) => destruct x end; first [exact D | st].
  Qed.
  Lemma poly_ok f : forall cs p, inv p -> left_ p < f -> ok p any (poly_loop E f cs p).
  Proof. induction f as [|f IH]; intros cs p IP L; [lia|]. cbn [poly_loop]. st; tail_with IH. Qed.
  Lemma spline_ok f : forall cs p, inv p -> left_ p < f -> ok p any (spline_loop E f cs p).
  Proof. pose proof take_double_ok. induction f as [|f IH]; intros cs p IP L; [lia|]. cbn [spline_loop]. st; tail_with IH. Qed.
  Lemma skip_ok f : forall p, inv p -> left_ p < f -> ok p any (skip_to_paren f p).
  Proof.
    induction f as [|f IH]; intros p IP L; [lia|]. cbn [skip_to_paren]. eapply bind_ok; [apply get_ok; auto|apply le_refl|].
    intros t q _ _ _ (-> & ->). destruct (_ || _) eqn:C; [st|]. assert (NE : at_end p = false) by (unfold at_end; destruct (is_kind TEof _); auto; rewrite orb_true_r in C; discriminate).
    st; tail_with IH.
  Qed.
  Lemma same_ok f p : inv p -> (forall p, same p (f p)) -> ok p any (upd_p f p).
  Proof. intros IP S. apply ok_any with (Q := fun _ q => same p q /\ q = f p). apply same_upd; auto. Qed.
  Lemma pad_ok k p : inv p -> ok p any (add_pad k p).
  Proof. intros IP. apply same_ok; auto. intros q. destruct (_ && _); repeat split; auto. Qed.
  Lemma zero_ok p : inv p -> ok p any (zero_bits p).
  Proof. intros IP. apply same_ok; auto. intros q. destruct (_ && _); repeat split; auto. Qed.
  Lemma bits_ok k p : inv p -> ok p any (add_bits k p).
  Proof.
    intros IP. unfold add_bits. destruct (_ && _); [|apply (ret_ok tt); auto; [apply le_refl|exact I]].
    destruct (_ <? _)%Z; [exact I|]. apply (same_ok (set_bits _ _ _ _)); auto. intros q. repeat split; auto.
  Qed.
  Lemma args_ok f t d p : inv p -> left_ p < f -> ok p any (deco_args E f t d p).
  Proof.
    intros IP L. pose proof take_number_ok. pose proof take_u32_ok. pose proof take_i64_ok. pose proof take_double_ok.
    pose proof (poly_ok f). pose proof (spline_ok f). pose proof (skip_ok f). pose proof pad_ok. pose proof (expression_ok f).
    unfold deco_args. repeat match goal with |- ok _ _ ((if ?b then _ else _) _) => destruct b; [solve [st]|] end. st.
    tail_with (skip_ok f).
  Qed.
  Lemma decorator_ok f d p : inv p -> left_ p < f -> ok p any (decorator E f d p).
  Proof.
    intros IP L. pose proof take_u32_ok. pose proof zero_ok. unfold decorator.
    eapply bind_ok; [apply get_ok; auto|apply le_refl|]. intros t q _ _ _ (-> & ->).
    eapply bind_ok; [apply consume_ok; [discriminate|auto]|apply le_refl|]. intros _ q IQ LQ _ _.
    repeat match goal with |- ok _ _ ((if ?b then _ else _) _) => destruct b; [solve [st]|] end. st.
    tail_with (args_ok f).
  Qed.
  Lemma decorators_ok f : forall d p, inv p -> left_ p < f -> ok p (fun d' q => left_ q < left_ p \/ d' = d) (decorators E f d p).
  Proof.
    induction f as [|f IH]; intros d p IP L; [lia|]. cbn [decorators].
    eapply bind_ok; [apply at_true; [auto|discriminate]|apply le_refl|]. intros b q _ _ _ (-> & B). destruct b; [|st].
    specialize (B eq_refl). eapply bind_ok; [apply advance_ok; auto|apply le_refl|]. intros _ q IQ LQ _ (_ & A & _). specialize (A B).
    eapply (bind_ok _ _ _ _ any); [apply decorator_ok; [auto|lia]|auto|]. intros d' q' IQ' LQ' L2 _.
    eapply ok_from; [apply IH; [auto|unfold le_ in *; lia]|auto|]. intros a q2 _ L3 _. left. unfold le_ in *. lia.
  Qed.
  Lemma shape_ok ty d p : inv p -> ok p any (field_shape ty d p).
  Proof. intros IP. pose proof take_u32_ok. unfold field_shape. st. Qed.
  Lemma const_ok ty d key v p : inv p -> ok p any (const_field E ty d key v p).
  Proof. intros IP. pose proof range_ok. unfold const_field. st. Qed.
  Lemma append_some f : forall src prefix strs out, length src < f -> append_with_prefix f src prefix strs out <> None.
  Proof.
    induction f as [|f IH]; intros src prefix strs out L; [lia|]. cbn [append_with_prefix]. destruct src as [|op src]; [discriminate|].
    destruct (opcode_size op) as [(sz & key)|] eqn:S; [|discriminate]. destruct (_ <? _)%N; [discriminate|].
    assert (1 <= sz)%N.
    { revert S. unfold opcode_size. repeat match goal with |- match ?x with _ => _ end = _ -> _ => destruct x end; intros X; try discriminate X; injection X as <- _; lia. }
    assert (D : length (skipn (N.to_nat sz) (op :: src)) < f) by (rewrite skipn_length; cbn [length] in *; lia).
    destruct (negb key); [now apply IH|]. destruct (prefixed _ _ _); [|discriminate]. destruct (strtab_add _ _). now apply IH.
  Qed.
  Lemma struct_ok ty name d w key c p : inv p -> ok p any (struct_field ty name d w key c p).
  Proof.
    intros IP. unfold struct_field. st.
    match goal with |- ok ?q _ _ => rename q into x end.
    pose proof (append_some (S (length c)) c (firstn 255 (ttext name)) (p_strs x) (p_out x) (Nat.lt_succ_diag_r _)) as A.
    destruct (append_with_prefix _ _ _ _ _) as [[(strs & out)|]|]; [|exact I|contradiction].
    assert (S : same x (set_out out (set_strs strs x))) by (repeat split; auto). split; [eapply same_inv; eauto|].
    split; [now apply same_le|exact I].
  Qed.
  Lemma enum_ok d w key e p : inv p -> ok p any (enum_field E d w key e p).
  Proof. intros IP. pose proof range_ok. unfold enum_field. st. Qed.
  Lemma string_ok d w key s p : inv p -> ok p any (string_field d w key s p).
  Proof. intros IP. unfold string_field. st. Qed.
  Lemma basic_ok ty d w key p : inv p -> ok p any (basic_field E ty d w key p).
  Proof.
    intros IP. pose proof range_ok. pose proof bits_ok. unfold basic_field.
    eapply bind_ok; [apply get_ok; auto|apply le_refl|]. intros bm q _ _ _ (-> & ->). cbv zeta.
    destruct (0 <? _)%N; [destruct (match type_name ty with _ => _ end); st|]. destruct (p_bitmode p); [st|].
    destruct (type_name ty) as [op|]; [|st].
    assert (D : forall q, inv q -> ok q any (match d_range d with Some (lo, hi) => emit_range_check E op lo hi | None => ret tt end q)) by (intros; st).
    eapply (bind_ok _ _ _ _ any); [|apply le_refl|intros; st].
    destruct (d_crc d) as [w'|]; [|st].
    assert (R : ok p any (ret tt p)) by st.
    repeat match goal with |- ok _ _ ((match ?x with _ => _ end) _) => destruct x end; first [exact R | st].
  Qed.
  Lemma rest_ok d p : inv p -> ok p (fun _ q => d_alone d = false -> prog p q) (field_rest E d p).
  Proof.
    intros IP. unfold field_rest.
    eapply bind_ok; [apply at_true; [auto|discriminate]|apply le_refl|]. intros semi q _ _ _ (-> & B1).
    eapply bind_ok; [apply at_true; [auto|discriminate]|apply le_refl|]. intros close q _ _ _ (-> & B2).
    destruct (_ && _) eqn:AL.
    - eapply ok_from with (Q := any); [|apply le_refl|].
      + st.
      + intros _ q _ _ _ D. rewrite D in AL. discriminate.
    - eapply ok_from with (Q := fun _ q => prog p q); [|apply le_refl|auto].
      eapply bind_ok; [apply emit_ok; auto|apply le_refl|]. intros _ q IQ LQ _ _.
      eapply bind_ok; [apply get_ok; auto|auto|]. intros ty q1 _ _ _ (_ & ->).
      eapply bind_ok; [apply consume_ok; [discriminate|auto]|auto|]. intros _ q1 I1 L1 L01 (PG & _).
      apply (prog_then _ q1); [unfold prog, le_ in *; destruct PG; [left; lia|auto]|auto|].
      clear B1 B2. pose proof shape_ok. pose proof const_ok. pose proof struct_ok. pose proof enum_ok. pose proof string_ok. pose proof basic_ok.
      eapply bind_ok; [apply get_ok; auto|apply le_refl|]. intros name q2 _ _ _ (_ & ->). destruct (is_kind TSelf name); [st|].
      eapply bind_ok; [apply consume_ok; [discriminate|auto]|apply le_refl|]. intros _ q2 I2 L2 _ _.
      eapply (bind_ok _ _ _ _ any); [|auto|].
      + destruct (strtab_add _ _) as (fs & x). assert (S : same q2 (set_struct (p_sname q2) fs q2)) by (repeat split; auto).
        assert (S2 : same q2 (set_err (set_struct (p_sname q2) fs q2))) by (repeat split; auto).
        destruct (_ =? _)%N; (split; [eapply same_inv; eauto|]); (split; [now apply same_le|exact I]).
      + intros _ q3 I3 L3 L13 _. st.
  Qed.
  Lemma docs_ok f : forall p, inv p -> left_ p < f -> ok p any (skip_docs f p).
  Proof. induction f as [|f IH]; intros p IP L; [lia|]. cbn [skip_docs]. st; tail_with IH. Qed.
  Lemma case_value_ok p : inv p -> ok p any (case_value p).
  Proof.
    intros IP. unfold case_value. eapply bind_ok; [apply get_ok; auto|apply le_refl|]. intros c q _ _ _ (-> & ->).
    assert (R : ok p any (ret 0%N p)) by st. destruct (tk (p_cur p)); first [exact R | st].
  Qed.
  Lemma head_ok p : inv p -> ok p any (switch_head p).
  Proof. intros IP. unfold switch_head. st. Qed.
  Lemma patch_ok js : forall t p, inv p -> ok p any (patch_jumps js t p).
  Proof. induction js as [|j js IH]; intros t p IP; cbn [patch_jumps]; st. Qed.
  Lemma tail_ok loc cs js d p : inv p -> ok p any (switch_tail loc cs js d p).
  Proof. intros IP. pose proof (patch_ok js). unfold switch_tail, here. st. Qed.

  (** ** Statements *)
  Definition stmt_ok f : Prop :=
    (forall p, inv p -> 4 * left_ p + 5 <= f -> ok p (fun _ q => prog p q) (parse_field E f p)) /\
    (forall p, inv p -> 4 * left_ p + 8 <= f -> ok p any (parse_if E f p)) /\
    (forall p, inv p -> 4 * left_ p + 7 <= f -> ok p any (parse_block E f p)) /\
    (forall p, inv p -> 1 <= f -> p_err p = true \/ 4 * left_ p + 6 <= f -> ok p any (block_loop E f p)) /\
    (forall loc cs js d p, inv p -> 1 <= f -> p_err p = true \/ 4 * left_ p + 8 <= f -> ok p any (case_loop E f loc cs js d p)).
  Lemma stmt f : stmt_ok f.
  Proof.
    induction f as [|f (PF & PI & PB & BL & CL)]; [repeat split; intros; lia|].
    split; [|split; [|split; [|split]]]; cbn [parse_field parse_if parse_block block_loop case_loop].
    - intros p IP L. eapply bind_ok; [apply get_ok; auto|apply le_refl|]. intros err q _ _ _ (-> & ->).
      destruct (p_err p) eqn:ER; [apply ret_ok; [auto|apply le_refl|right; auto]|].
      eapply (bind_ok _ _ _ _ any); [apply docs_ok; [auto|lia]|apply le_refl|]. intros _ q IQ LQ _ _.
      eapply bind_ok; [apply get_ok; auto|auto|]. intros k q1 _ _ _ (-> & ->).
      assert (D : ok p (fun _ x => prog p x) ((let% d := decorators E f deco0 in field_rest E d) q)).
      { eapply bind_ok; [apply decorators_ok; [auto|unfold le_ in *; lia]|auto|]. intros d q1 I1 L1 L01 PD.
        eapply ok_from; [apply rest_ok; auto|auto|]. intros a q2 _ L2 PR. cbv beta in PR. unfold prog, le_ in *. destruct PD as [PD|PD]; [left; lia|]. rewrite PD in PR.
        specialize (PR eq_refl). destruct PR; [left; lia|auto]. }
      destruct (tk (p_cur q)) eqn:K; try exact D.
      + clear D. assert (NE : at_end q = false) by (eapply not_end; [exact K|discriminate]).
        eapply bind_ok; [apply advance_ok; auto|auto|]. intros _ q1 I1 L1 L01 (_ & A & _). specialize (A NE).
        apply (prog_then _ q1); [left; unfold le_ in *; lia|auto|].
        eapply (bind_ok _ _ _ _ any); [apply head_ok; auto|apply le_refl|]. intros loc q2 I2 L2 _ _.
        eapply ok_from; [apply CL; [auto|lia|]|auto|intros; exact I]. right. unfold le_ in *. lia.
      + clear D. assert (NE : at_end q = false) by (eapply not_end; [exact K|discriminate]).
        eapply bind_ok; [apply advance_ok; auto|auto|]. intros _ q1 I1 L1 L01 (_ & A & _). specialize (A NE).
        apply (prog_then _ q1); [left; unfold le_ in *; lia|auto|]. apply PI; auto. unfold le_ in *. lia.
    - intros p IP L. pose proof (expression_ok f). unfold here. st; try left_lia; first [tail_with (expression_ok f) | tail_with PB | tail_with PI].
    - intros p IP L. eapply bind_ok; [apply consume_ok; [discriminate|auto]|apply le_refl|]. intros _ q IQ LQ _ (PG & _).
      eapply (bind_ok _ _ _ _ any); [apply BL; [auto|lia|]|auto|].
      + destruct PG; [|auto]. right. unfold le_ in *. lia.
      + intros _ q1 I1 L1 L01 _. st.
    - intros p IP F1 L. eapply bind_ok; [apply get_ok; auto|apply le_refl|]. intros t q _ _ _ (-> & ->).
      eapply bind_ok; [apply get_ok; auto|apply le_refl|]. intros err q _ _ _ (-> & ->).
      destruct (_ || _) eqn:C; [st|]. rewrite !orb_false_iff in C. destruct C as ((C1 & C2) & C3).
      destruct L as [L|L]; [congruence|].
      destruct (is_kind TDoc _).
      + eapply bind_ok; [apply advance_ok; auto|apply le_refl|]. intros _ q I1 L1 _ (_ & A & _). specialize (A C2).
        eapply ok_from; [apply BL; [auto|lia|]|auto|intros; exact I]. right. lia.
      + eapply bind_ok; [apply PF; [auto|lia]|apply le_refl|]. intros u q I1 L1 _ PG.
        eapply ok_from; [apply BL; [auto|lia|]|auto|intros; exact I]. destruct PG; [right; lia|auto].
    - intros loc cs js d p IP F1 L. pose proof case_value_ok. pose proof (tail_ok loc cs js d).
      assert (B : forall q, inv q -> 4 * left_ q + 7 <= f -> ok q any (((let% b := at_kind TLbrace in if b then parse_block E f else parse_field E f) ;;
        let% j := here in emit ([82%N] ++ le4 0) ;; ret j) q)).
      { intros q IQ LQ. eapply (bind_ok _ _ _ _ any); [|apply le_refl|intros _ q1 I1 L1 _ _; unfold here; st].
        eapply bind_ok; [apply at_true; [auto|discriminate]|apply le_refl|]. intros b q1 _ _ _ (-> & _). destruct b; [apply PB; auto|].
        eapply ok_any, PF; [auto|lia]. }
      eapply bind_ok; [apply get_ok; auto|apply le_refl|]. intros t q _ _ _ (-> & ->).
      eapply bind_ok; [apply get_ok; auto|apply le_refl|]. intros err q _ _ _ (-> & ->).
      destruct (_ || _) eqn:C; [auto|]. rewrite !orb_false_iff in C. destruct C as ((C1 & C2) & C3).
      destruct L as [L|L]; [congruence|].
      assert (D : ok p any ((error ;; advance ;; case_loop E f loc cs js d) p)).
      { eapply bind_ok; [apply error_ok; auto|apply le_refl|]. intros _ q I1 L1 _ (_ & X).
        eapply bind_ok; [apply advance_ok; auto|auto|]. intros _ q1 I2 L2 L02 _.
        eapply ok_from; [apply CL; [auto|lia|]|auto|intros; exact I]. left. unfold le_ in L2. tauto. }
      destruct (tk (p_cur p)); try exact D; clear D.
      + eapply bind_ok; [apply advance_ok; auto|apply le_refl|]. intros _ q1 I1 L1 _ (_ & A & _). specialize (A C2).
        eapply (bind_ok _ _ _ _ any); [auto|auto|]. intros v q2 I2 L2 L02 _.
        eapply bind_ok; [apply consume_ok; [discriminate|auto]|auto|]. intros _ q3 I3 L3 L03 _.
        eapply (bind_ok _ _ _ _ any); [st|auto|]. intros _ q4 I4 L4 L04 _.
        eapply bind_ok; [apply get_ok; auto|auto|]. intros at_ q5 _ _ _ (_ & ->).
        eapply (bind_ok _ _ _ _ any); [apply B; [auto|unfold le_ in *; lia]|auto|]. intros j q6 I6 L6 L06 _.
        eapply ok_from; [apply CL; [auto|lia|]|auto|intros; exact I]. right. unfold le_ in *. lia.
      + eapply bind_ok; [apply advance_ok; auto|apply le_refl|]. intros _ q1 I1 L1 _ (_ & A & _). specialize (A C2).
        eapply bind_ok; [apply consume_ok; [discriminate|auto]|auto|]. intros _ q3 I3 L3 L03 _.
        eapply bind_ok; [apply get_ok; auto|auto|]. intros at_ q5 _ _ _ (_ & ->).
        eapply (bind_ok _ _ _ _ any); [apply B; [auto|unfold le_ in *; lia]|auto|]. intros j q6 I6 L6 L06 _.
        eapply ok_from; [apply CL; [auto|lia|]|auto|intros; exact I]. right. unfold le_ in *. lia.
  Qed.

  (** ** Definitions *)
  Lemma enum_loop_ok f : forall names vals nx p, inv p -> 1 <= f -> p_err p = true \/ left_ p < f -> ok p any (enum_loop f names vals nx p).
  Proof.
    pose proof take_i64_ok as TI. induction f as [|f IH]; intros names vals nx p IP F1 L; [lia|]. cbn [enum_loop].
    eapply bind_ok; [apply get_ok; auto|apply le_refl|]. intros t q _ _ _ (-> & ->).
    eapply bind_ok; [apply get_ok; auto|apply le_refl|]. intros err q _ _ _ (-> & ->).
    destruct (_ || _) eqn:C; [st|]. rewrite !orb_false_iff in C. destruct C as ((C1 & C2) & C3). destruct L as [L|L]; [congruence|].
    assert (P1 : 1 <= left_ p) by (unfold left_, at_end; rewrite C2; apply ended_pos, IP).
    destruct (is_kind TDoc _).
    - eapply bind_ok; [apply advance_ok; auto|apply le_refl|]. intros _ q I1 L1 _ (_ & A & _). specialize (A C2).
      eapply ok_from; [apply IH; [auto|lia|]|auto|intros; exact I]. right. lia.
    - eapply bind_ok; [apply consume_ok; [discriminate|auto]|apply le_refl|]. intros _ q I1 L1 _ (PG & _).
      eapply (bind_ok _ _ _ _ any); [st|auto|]. intros _ q2 I2 L2 L02 _.
      eapply bind_ok; [apply at_true; [auto|discriminate]|auto|]. intros b q3 _ _ _ (-> & _).
      eapply (bind_ok _ _ _ _ any); [destruct b; st|auto|]. intros v q3 I3 L3 L03 _.
      eapply (bind_ok _ _ _ _ any); [st|auto|]. intros _ q4 I4 L4 L04 _. destruct (_ =? _)%Z; [exact I|].
      eapply bind_ok; [apply at_true; [auto|discriminate]|auto|]. intros b' q5 _ _ _ (-> & _).
      eapply (bind_ok _ _ _ _ any); [st|auto|]. intros _ q6 I6 L6 L06 _.
      eapply ok_from; [apply IH; [auto|lia|]|auto|intros; exact I]. unfold le_ in *. destruct PG; [right; lia|left; tauto].
  Qed.
  Ltac same_tail := match goal with |- ok _ any (upd_p _ ?q) => apply (ok_from _ q any any); [apply same_ok; [assumption|intros; repeat split; auto]|lsolve|intros; exact I] end.
  Lemma parse_enum_ok f p : inv p -> left_ p < f -> ok p any (parse_enum f p).
  Proof.
    intros IP L. unfold parse_enum. st; try (eapply ok_from; [apply enum_loop_ok; [auto|lia|right; unfold le_ in *; lia]|lsolve|intros; exact I]).
    all: same_tail.
  Qed.
  Lemma parse_struct_ok f p : inv p -> 4 * left_ p + 7 <= f -> ok p any (parse_struct E f p).
  Proof.
    intros IP L. destruct (stmt f) as (_ & _ & PB & _). unfold parse_struct. st; try same_tail; try (tail_with PB).
  Qed.
  Lemma parse_packet_ok f p : inv p -> 4 * left_ p + 7 <= f -> ok p any (parse_packet E f p).
  Proof.
    intros IP L. destruct (stmt f) as (_ & _ & PB & _). unfold parse_packet, here. st; try same_tail; try (tail_with PB).
  Qed.

  (** ** Files *)
  Lemma start_ok p : ended (p_toks p) -> Forall text (p_imports p) ->
    exists q, advance p = POk tt q /\ inv q /\ left_ q <= length (p_toks p) /\ p_imports q = p_imports p /\ (p_err p = true -> p_err q = true).
  Proof.
    intros D F. unfold advance. destruct (next_token (p_toks p) false) as ((l & o) & b) eqn:X.
    destruct (next_ok _ _ D _ _ _ X) as (D' & L' & t & -> & C1 & C2).
    eexists. split; [reflexivity|]. set (q := set_tok l t (p_cur p) p).
    assert (IQ : inv q) by (split; [exact D'|]; split; [|exact F]; unfold at_end; cbn [q p_cur set_tok p_toks]; rewrite is_kind_eq; auto).
    assert (LQ : left_ q <= length (p_toks p)) by (unfold left_; destruct (at_end q); cbn; lia).
    destruct b.
    - match goal with |- context [set_errs ?l _] => assert (S : same q (set_errs l q)) by (repeat split; auto) end. split; [eapply same_inv; eauto|].
      split; [destruct (same_le _ _ S); lia|]. split; [reflexivity|]. intros _. reflexivity.
    - split; [exact IQ|]. split; [exact LQ|]. split; [reflexivity|]. auto.
  Qed.
  Lemma bind_raw {A B} (m : par A) (k : A -> par B) p0 p Q R : ok p Q (m p) ->
    (forall a q, inv q -> le_ p q -> Q a q -> ok p0 R (k a q)) -> ok p0 R (pbind m k p).
  Proof. unfold pbind. intros M K. destruct (m p) as [a q| |]; [|exact I|destruct M]. destruct M as (IQ & LQ & QQ). auto. Qed.
  Lemma lex_from_ended f : forall l pos line ts, lex_from f l pos line = Some ts -> ended ts.
  Proof.
    induction f as [|f IH]; intros l pos line ts X; [discriminate|]. cbn [lex_from] in X.
    destruct (lexer_next _ _ _ _) as [(((t & l') & pos') & line')|]; [|discriminate].
    destruct (kind_eq_dec (tk t) TEof) as [Q|Q].
    - rewrite Q in X. injection X as <-. exists [], t. auto.
    - assert (Y : option_map (cons t) (lex_from f l' pos' line') = Some ts) by (destruct (tk t); try exact X; congruence).
      destruct (lex_from f l' pos' line') as [ts'|] eqn:Z; [|discriminate]. injection Y as <-.
      destruct (IH _ _ _ _ Z) as (a & e & -> & K & F). exists (t :: a), e. split; [reflexivity|]. split; [exact K|]. constructor; auto.
  Qed.
  Lemma lex_ended src ts : lex src = Some ts -> ended ts.
  Proof. apply lex_from_ended. Qed.

  Lemma filter_weak {A} (g h : A -> bool) l : (forall x, g x = true -> h x = true) -> length (filter g l) <= length (filter h l).
  Proof. intros W. induction l as [|x l IH]; cbn; [lia|]. specialize (W x). destruct (g x), (h x); cbn; try lia; try discriminate (W eq_refl). Qed.
  Lemma filter_less {A} (g h : A -> bool) x l : (forall x, g x = true -> h x = true) -> In x l -> g x = false -> h x = true ->
    length (filter g l) < length (filter h l).
  Proof.
    intros W IX GX HX. induction l as [|y l IH]; [destruct IX|]. cbn. destruct IX as [-> |IX].
    - rewrite GX, HX. cbn. pose proof (filter_weak g h l W). lia.
    - specialize (IH IX). specialize (W y). destruct (g y), (h y); cbn; try lia; try discriminate (W eq_refl).
  Qed.
  Lemma same_text_eq a b : same_text a b = true <-> a = b.
  Proof. unfold same_text. destruct list_eq_dec; split; intros; congruence. Qed.
  Lemma add_import ims full : Forall text ims -> existsb (same_text full) ims = false ->
    fst (strtab_add ims full) = ims ++ [full].
  Proof.
    intros F X. unfold strtab_add. rewrite (find_index ims full F). destruct in_dec as [Y|Y]; [|reflexivity].
    assert (existsb (same_text full) ims = true) by (apply existsb_exists; exists full; split; [auto|now apply same_text_eq]). congruence.
  Qed.
  Lemma unread_add ims full : unread (ims ++ [full]) <= unread ims.
  Proof. apply filter_weak. intros x. rewrite existsb_app, negb_orb, andb_true_iff. tauto. Qed.
  Lemma unread_less ims full : In full files -> existsb (same_text full) ims = false -> unread (ims ++ [full]) < unread ims.
  Proof.
    intros J X. apply (filter_less _ _ full); auto.
    - intros x. rewrite existsb_app, negb_orb, andb_true_iff. tauto.
    - rewrite existsb_app. cbn [existsb]. rewrite (proj2 (same_text_eq full full) eq_refl), orb_true_r. reflexivity.
    - now rewrite X.
  Qed.

  Hypothesis canon_text : forall q, text (e_canon E q).
  Variable size : nat.
  Hypothesis readable : forall q src, e_read E q = Some src -> In q files /\ forall ts, lex src = Some ts -> length ts <= size.
  Hypothesis lexes : forall src, lex src <> None.

  Definition need (c : nat) (p : pst) : nat := 4 * left_ p + c + unread (p_imports p) * (4 * size + 20).
  Definition top_ok f : Prop :=
    (forall p, inv p -> 1 <= f -> p_err p = true \/ need 10 p <= f -> ok p any (top_level E f p)) /\
    (forall p, inv p -> need 9 p <= f -> ok p any (top_decorators E f p)) /\
    (forall p, inv p -> need 8 p <= f -> ok p any (parse_import E f p)).
  Lemma need_mono c p q : le_ p q -> need c q <= need c p.
  Proof. unfold need, le_. intros (A & _ & B). nia. Qed.
  Lemma top f : top_ok f.
  Proof.
    induction f as [|f (TL & TD & PI)]; [repeat split; unfold need; intros; lia|].
    split; [|split]; cbn [top_level top_decorators parse_import].
    - intros p IP F1 L. eapply bind_ok; [apply get_ok; auto|apply le_refl|]. intros t q _ _ _ (-> & ->).
      eapply bind_ok; [apply get_ok; auto|apply le_refl|]. intros err q _ _ _ (-> & ->).
      destruct (_ || _) eqn:C; [st|]. rewrite !orb_false_iff in C. destruct C as (C2 & C3). destruct L as [L|L]; [congruence|].
      assert (P1 : 1 <= left_ p) by (unfold left_, at_end; rewrite C2; apply ended_pos, IP).
      assert (NX : forall q, inv q -> le_ p q -> left_ q < left_ p \/ p_err q = true -> ok p any (top_level E f q)).
      { intros q IQ LQ PG. eapply ok_from; [apply TL; [auto|unfold need in *; lia|]|auto|intros; exact I].
        destruct PG as [PG|PG]; [right|auto]. unfold need, le_ in *. nia. }
      destruct (is_kind TDoc _).
      + eapply bind_ok; [apply advance_ok; auto|apply le_refl|]. intros _ q I1 L1 _ (_ & A & _). specialize (A C2). apply NX; auto.
      + eapply (bind_ok _ _ _ _ any); [apply TD; [auto|unfold need in *; lia]|apply le_refl|]. intros _ q I1 L1 _ _.
        eapply bind_ok; [apply get_ok; auto|auto|]. intros k q1 _ _ _ (-> & ->).
        assert (N1 : need 10 q <= S f) by (pose proof (need_mono 10 _ _ L1); lia).
        assert (PS : at_end q = false -> 1 <= left_ q) by (intros X; unfold left_; rewrite X; apply ended_pos, I1).
        assert (DS : ok q (fun _ x => prog q x) (error q)) by (eapply ok_from; [apply error_ok; auto|apply le_refl|]; intros u x _ _ (_ & X); right; auto).
        eapply bind_ok with (Q := fun _ x => prog p x).
        * destruct (tk (p_cur q)) eqn:K; try (eapply ok_from; [exact DS|apply le_refl|]; intros u x _ _ [X|X]; [left; unfold le_ in *; lia|right; exact X]).
          -- apply ret_ok; [auto|apply le_refl|]. left. unfold left_ at 1. rewrite (proj2 (is_kind_eq _ _) K : at_end q = true). lia.
          -- assert (NE : at_end q = false) by (eapply not_end; [exact K|discriminate]). specialize (PS NE).
             eapply bind_ok; [apply advance_ok; auto|apply le_refl|]. intros _ q1 I2 L2 _ (_ & A & _). specialize (A NE).
             eapply ok_from; [apply (parse_struct_ok f q1); [auto|unfold need in *; lia]|auto|]. intros u x _ LX _. left. unfold le_ in *. lia.
          -- assert (NE : at_end q = false) by (eapply not_end; [exact K|discriminate]). specialize (PS NE).
             eapply bind_ok; [apply get_ok; auto|apply le_refl|]. intros n q1 _ _ _ (-> & ->).
             eapply (bind_ok _ _ _ _ any); [st|apply le_refl|]. intros _ q1 I2 L2 _ _.
             eapply (bind_ok _ _ _ _ any); [same_tail|auto|]. intros _ q2 I3 L3 L03 _.
             eapply bind_ok; [apply advance_ok; auto|auto|]. intros _ q3 I4 L4 L04 (_ & A & _).
             eapply ok_from; [apply (parse_packet_ok f q3); [auto|unfold need, le_ in *; lia]|auto|]. intros u x _ LX _.
             left. unfold le_ in *. destruct (at_end q2) eqn:AE; [|specialize (A eq_refl); lia].
             assert (left_ q2 = 0) by (unfold left_; now rewrite AE). lia.
          -- assert (NE : at_end q = false) by (eapply not_end; [exact K|discriminate]). specialize (PS NE).
             eapply bind_ok; [apply advance_ok; auto|apply le_refl|]. intros _ q1 I2 L2 _ (_ & A & _). specialize (A NE).
             eapply ok_from; [apply (parse_enum_ok f q1); [auto|unfold need in *; lia]|auto|]. intros u x _ LX _. left. unfold le_ in *. lia.
          -- assert (NE : at_end q = false) by (eapply not_end; [exact K|discriminate]).
             eapply ok_from; [apply advance_ok; auto|apply le_refl|]. intros u x _ LX (_ & A & _). specialize (A NE). left. unfold le_ in *. lia.
        * auto.
        * intros u x IX LX LPX PX. apply NX; auto.
    - intros p IP L. pose proof take_u32_ok.
      eapply bind_ok; [apply at_true; [auto|discriminate]|apply le_refl|]. intros b q _ _ _ (-> & B). destruct b; cbn [negb]; [|st].
      specialize (B eq_refl). eapply bind_ok; [apply advance_ok; auto|apply le_refl|]. intros _ q I1 L1 _ (_ & A & IM). specialize (A B).
      eapply bind_ok; [apply get_ok; auto|auto|]. intros t q1 _ _ _ (_ & ->).
      eapply bind_ok; [apply consume_ok; [discriminate|auto]|auto|]. intros _ q2 I2 L2 L02 _.
      eapply (bind_ok _ _ _ _ any); [|auto|].
      + pose proof (need_mono 8 _ _ L2) as N2. pose proof (skip_ok f) as SK.
        destruct (match_keyword t "version"); [st|]. destruct (match_keyword t "import").
        { apply PI; auto. unfold need, le_ in *. nia. }
        repeat match goal with |- ok _ _ ((if ?b then _ else _) _) => destruct b; [solve [st; try same_tail]|] end.
        st. tail_with SK. unfold need, le_ in *. lia.
      + intros _ q3 I3 L3 L03 _. eapply ok_from; [apply TD; [auto|]|auto|intros; exact I]. unfold need, le_ in *. nia.
    - intros p IP L.
      eapply bind_ok; [apply consume_ok; [discriminate|auto]|apply le_refl|]. intros _ q1 I1 L1 _ _.
      eapply bind_ok; [apply get_ok; auto|auto|]. intros t qx _ _ _ (_ & ->).
      eapply bind_ok; [apply consume_ok; [discriminate|auto]|auto|]. intros _ q2 I2 L2 L02 _.
      eapply bind_ok; [apply consume_ok; [discriminate|auto]|auto|]. intros _ q3 I3 L3 L03 _.
      destruct (256 <=? _)%N; [st|].
      eapply bind_ok; [apply get_ok; auto|auto|]. intros old qx _ _ _ (-> & ->). cbv zeta.
      set (full := e_canon E _). destruct (existsb _ _) eqn:X; [st|].
      assert (F3 : Forall text (p_imports q3)) by apply I3. rewrite (add_import _ _ F3 X).
      assert (FT : text full) by apply canon_text.
      set (ims := p_imports q3 ++ [full]).
      assert (FI : Forall text ims) by (apply Forall_app; auto).
      set (q4 := set_import ims (p_path q3) (p_depth q3) q3).
      assert (I4 : inv q4) by (destruct I3 as (A & B & _); split; [exact A|]; split; [exact B|exact FI]).
      assert (L4 : le_ q3 q4) by (split; [apply Nat.le_refl|]; split; [auto|apply unread_add]).
      eapply (bind_raw _ _ _ q3 (fun _ q => q = q4)); [split; [exact I4|]; split; [exact L4|reflexivity]|].
      intros u q5 _ _ ->. destruct (e_read E full) as [src|] eqn:RD; [|eapply ok_from; [apply error_ok; auto|eapply le_trans; eauto|intros; exact I]].
      destruct (readable _ _ RD) as (INF & SZ). destruct (lex src) as [ts|] eqn:LX; [|destruct (lexes _ LX)].
      specialize (SZ _ eq_refl). pose proof (lex_ended _ _ LX) as EN.
      set (q5 := set_import (p_imports q4) full (p_depth q3 + 1)%N (set_tok ts (p_cur q4) (p_prev q4) q4)).
      destruct (start_ok q5 EN FI) as (q6 & A6 & I6 & L6 & M6 & R6).
      unfold pbind at 1. cbn [upd_p]. fold q5. unfold pbind at 1. rewrite A6.
      assert (U6 : unread (p_imports q6) < unread (p_imports q3)) by (rewrite M6; apply unread_less; auto).
      cbn [q5 p_toks set_import set_tok] in L6.
      eapply (bind_raw _ _ _ q6 any).
      + apply TL; [auto|unfold need, le_ in *; nia|]. right. unfold need, le_ in *. nia.
      + intros u' q7 I7 L7 _. cbn. split.
        * destruct I3 as (A & B & _). destruct I7 as (_ & _ & C). split; [exact A|]. split; [exact B|exact C].
        * split; [|exact I]. destruct L03 as (A1 & A2 & A3). destruct L7 as (B1 & B2 & B3). split; [exact A1|]. split; [|cbn; lia].
          cbn. intros X1. apply B2, R6. cbn. auto.
  Qed.

  Lemma parse_file_ends path src f : In path files -> text path ->
    (forall ts, lex src = Some ts -> length ts <= size) -> 4 * size + 10 + length files * (4 * size + 20) <= f ->
    parse_file E f path src <> PFuel.
  Proof.
    intros J T SZ L. unfold parse_file. destruct (lex src) as [ts|] eqn:LX; [|destruct (lexes _ LX)]. specialize (SZ _ eq_refl).
    destruct (start_ok (parser0 path ts) (lex_ended _ _ LX)) as (q & A & I1 & L1 & M1 & _); [repeat constructor; auto|].
    cbn [parser0 p_toks] in L1. unfold pbind. rewrite A. destruct (top f) as (TL & _).
    assert (U : unread (p_imports q) <= length files) by apply filter_len.
    assert (O : ok q any (top_level E f q)).
    { apply TL; [auto|lia|]. right. unfold need. nia. }
    intros X. rewrite X in O. exact O.
  Qed.
End Files.

(** ** Renumbering the names *)
Lemma skip_args_ge poly op bc off : (off <= skip_args poly op bc off)%N.
Proof.
  unfold skip_args. cbv zeta. repeat match goal with |- (_ <= match ?x with _ => _ end)%N => destruct x end; try lia.
Qed.
Lemma mark_some f : forall bc off used, 1 <= f -> length bc < f + N.to_nat off -> mark f bc off used <> None.
Proof.
  induction f as [|f IH]; intros bc off used F L; [lia|]. cbn [mark].
  destruct (lenN bc <=? off)%N eqn:C; [discriminate|]. unfold lenN in C.
  destruct (_ && _); [discriminate|]. apply IH; [lia|].
  match goal with |- context [skip_args ?a ?b ?c ?d] => pose proof (skip_args_ge a b c d) end. destruct (keyed _); lia.
Qed.
Lemma renumber_len m bc off : (off + 2 <= lenN bc)%N -> length (renumber m bc off) = length bc.
Proof.
  intros L. unfold renumber. unfold lenN in L. destruct (nth_error _ _); [|reflexivity].
  rewrite !app_length, firstn_length, skipn_length. change (length (le2 n)) with 2. lia.
Qed.
Lemma remap_some f : forall m bc off, 1 <= f -> length bc < f + N.to_nat off -> remap f m bc off <> None.
Proof.
  induction f as [|f IH]; intros m bc off F L; [lia|]. cbn [remap].
  destruct (lenN bc <=? off)%N eqn:C; [discriminate|]. unfold lenN in C.
  destruct (keyed (rd bc off)) eqn:K; cbn [andb].
  - destruct (lenN bc <? _)%N eqn:C2; [discriminate|].
    set (bc1 := renumber m bc (off + 1)). assert (L1 : length bc1 = length bc) by (apply renumber_len; lia).
    apply IH; [lia|]. match goal with |- context [skip_args ?a ?b ?c ?d] => pose proof (skip_args_ge a b c d) end.
    destruct (_ && _) eqn:C3; [|lia]. rewrite renumber_len; [lia|]. rewrite andb_true_iff in C3. lia.
  - apply IH; [lia|]. match goal with |- context [skip_args ?a ?b ?c ?d] => pose proof (skip_args_ge a b c d) end.
    destruct (_ && _) eqn:C3; [|lia]. rewrite renumber_len; [lia|]. rewrite andb_true_iff in C3. lia.
Qed.
Lemma optimize_some strs bc : optimize_strings strs bc <> None.
Proof.
  unfold optimize_strings. destruct (_ =? _)%N; [discriminate|]. pose proof (mark_some (S (length bc)) bc 0 (map (fun _ => false) strs)) as M.
  destruct (mark _ _ _ _) as [used|]; [|exfalso; apply M; auto; lia]. destruct (build_map _ _ _) as (tab & m).
  pose proof (remap_some (S (length bc)) m bc 0) as R. destruct (remap _ _ _ _); [discriminate|]. exfalso. apply R; auto; lia.
Qed.

(** ** Whole files *)
Lemma sizes (E : env) (files : list (list N)) : (forall src, lex src <> None) ->
  exists size, forall q src, In q files -> e_read E q = Some src -> forall ts, lex src = Some ts -> length ts <= size.
Proof.
  intros LX. induction files as [|f files (n & IH)]; [exists 0; intros ? ? []|].
  exists (n + match e_read E f with Some src => match lex src with Some ts => length ts | None => 0 end | None => 0 end).
  intros q src [-> |J] R ts T; [rewrite R, T; lia|]. specialize (IH q src J R ts T). lia.
Qed.
Lemma compile_ends (E : env) (files : list (list N)) : (forall src, lex src <> None) ->
  (forall q, text (e_canon E q)) -> (forall q, e_read E q <> None -> In q files) ->
  forall path, exists n, forall fuel, n <= fuel -> compile_file E fuel path <> CFuel.
Proof.
  intros LX CT FI path. destruct (sizes E files LX) as (size & SZ).
  assert (RD : forall q src, e_read E q = Some src -> In q files /\ forall ts, lex src = Some ts -> length ts <= size).
  { intros q src R. assert (J : In q files) by (apply FI; congruence). split; [exact J|]. intros. eapply SZ; eauto. }
  exists (4 * size + 10 + length files * (4 * size + 20)). intros fuel L. unfold compile_file.
  destruct (e_read E (e_canon E path)) as [src|] eqn:R; [|discriminate]. destruct (RD _ _ R) as (J & S1).
  pose proof (parse_file_ends E files CT size RD LX (e_canon E path) src fuel J (CT path) S1 L) as X.
  destruct (parse_file _ _ _ _) as [u p| |]; [|discriminate|contradiction]. destruct (p_err p); [discriminate|].
  pose proof (optimize_some (p_strs p) (p_out p)). destruct (optimize_strings _ _) as [(? & ?)|]; [discriminate|contradiction].
Qed.
