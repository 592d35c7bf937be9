(** The expression parser follows the grammar. *)
From Coq Require Import Strings.String ZifyBool ZifyNat ZifyN.
From Verif Require Import Base SpecBytes SpecVM ModelVM ModelImage ModelText SpecText ModelParse SpecParse LemBase LemStr LemText.

(** ** Bytes *)
Lemma le2_bytes v : le2 v = bytes_of LE 2 v.
Proof. reflexivity. Qed.
Lemma le4_bytes v : le4 v = bytes_of LE 4 v.
Proof. unfold le4, bytes_of, le_bytes. rewrite !N.div_div by lia. reflexivity. Qed.
Lemma le8_bytes v : le8 v = bytes_of LE 8 v.
Proof. unfold le8. rewrite !le4_bytes. unfold bytes_of, le_bytes. rewrite !N.div_div by lia. reflexivity. Qed.

(** ** Tables of names *)
Lemma index_in t n : In n t -> forall x, index_of (t ++ x) n = index_of t n.
Proof.
  induction t as [|y t IH]; [intros []|]. intros I x. cbn. destruct list_eq_dec as [E|E]; auto.
  destruct I as [I|I]; [contradiction|]. now rewrite IH.
Qed.
Lemma index_notin t n : ~ In n t -> index_of (t ++ [n]) n = lenN t.
Proof.
  induction t as [|y t IH]; intros I; cbn [app index_of].
  - destruct list_eq_dec; [reflexivity|contradiction].
  - destruct list_eq_dec as [E|E]; [exfalso; apply I; left; auto|]. rewrite IH, lenN_cons; [lia|].
    intros J. apply I. right. auto.
Qed.
Lemma find_index t s : Forall text t -> forall i,
  strtab_find t s i = if in_dec (list_eq_dec N.eq_dec) s t then Some (i + index_of t s) else None.
Proof.
  induction 1 as [|x t X F IH]; intros i; cbn [strtab_find index_of]; [reflexivity|].
  rewrite (cstr_text _ X). destruct (list_eq_dec N.eq_dec x s) as [E|E].
  - destruct (in_dec _ s (x :: t)) as [I|I]; [f_equal; lia|]. exfalso. apply I. left. auto.
  - rewrite IH. destruct (in_dec _ s t) as [I|I], (in_dec _ s (x :: t)) as [J|J]; auto.
    + f_equal. lia.
    + exfalso. apply J. right. auto.
    + destruct J; contradiction.
Qed.
Lemma index_bound t n : In n t -> index_of t n < lenN t.
Proof.
  induction t as [|y t IH]; [intros []|]. intros I. cbn [index_of]. rewrite lenN_cons. destruct list_eq_dec as [E|E]; [lia|].
  destruct I as [I|I]; [contradiction|]. specialize (IH I). lia.
Qed.
Definition table1 (t : list (list N)) (s : list N) : list (list N) := fst (strtab_add t s).
Lemma table1_eq t s : Forall text t -> table1 t s = if in_dec (list_eq_dec N.eq_dec) s t then t else t ++ [s].
Proof. intros F. unfold table1, strtab_add. rewrite (find_index t s F). destruct in_dec; reflexivity. Qed.
Lemma add_index t s : Forall text t -> lenN (table1 t s) <= 65536 ->
  strtab_add t s = (table1 t s, index_of (table1 t s) s) /\ In s (table1 t s).
Proof.
  intros F. rewrite (table1_eq t s F). unfold strtab_add. rewrite (find_index t s F). destruct in_dec as [I|I].
  - intros L. pose proof (index_bound t s I). rewrite N.mod_small by (change (2 ^ 16) with 65536; lia). auto.
  - rewrite lenN_app. cbn [lenN]. intros L. rewrite (index_notin t s I). unfold lenN at 2 in L. cbn [length] in L.
    rewrite N.mod_small by (change (2 ^ 16) with 65536; lia). split; auto. apply in_or_app. right. left. auto.
Qed.
Lemma table1_text t s : Forall text t -> text s -> Forall text (table1 t s).
Proof. intros F X. rewrite table1_eq; auto. destruct in_dec; auto. apply Forall_app. auto. Qed.
Lemma table1_app t s : exists x, table1 t s = t ++ x.
Proof. unfold table1, strtab_add. destruct strtab_find; cbn; [exists []; now rewrite app_nil_r|eauto]. Qed.

Definition table (t : list (list N)) (ns : list (list N)) : list (list N) := fold_left table1 ns t.
Lemma table_intern ns : forall t, fst (intern t ns) = table t ns.
Proof.
  induction ns as [|s r IH]; intros t; cbn [intern table fold_left]; auto. unfold table1 at 2. specialize (IH (fst (strtab_add t s))).
  destruct (strtab_add t s) as [t' i]. cbn [fst] in *. destruct (intern t' r). cbn [fst] in *. exact IH.
Qed.
Lemma table_snoc t a b : table t (a ++ b) = table (table t a) b.
Proof. apply fold_left_app. Qed.
Lemma table_text ns : forall t, Forall text t -> Forall text ns -> Forall text (table t ns).
Proof. induction ns as [|s r IH]; intros t F G; cbn; auto. inversion G; subst. apply IH; auto. now apply table1_text. Qed.
Lemma table_app ns : forall t, exists x, table t ns = t ++ x.
Proof.
  induction ns as [|s r IH]; intros t; cbn; [exists []; now rewrite app_nil_r|].
  destruct (IH (table1 t s)) as [x E], (table1_app t s) as [y E']. exists (y ++ x). rewrite app_assoc, <- E'. exact E.
Qed.
Lemma table_len t ns : lenN t <= lenN (table t ns).
Proof. destruct (table_app ns t) as [x ->]. rewrite lenN_app. lia. Qed.

(** ** States *)
Definition going (p : pst) (cur : token) (toks : list token) (prev : token) (o : list N) (s : list (list N)) : pst :=
  set_tok toks cur prev (set_out o (set_strs s p)).
Lemma going_self p : p = going p (p_cur p) (p_toks p) (p_prev p) (p_out p) (p_strs p).
Proof. destruct p. reflexivity. Qed.

Definition plain (t : token) : Prop := tk t <> TError /\ tk t <> TEof.
Lemma next_plain b r : plain b -> next_token (b :: r) false = (r, Some b, false).
Proof. intros [A B]. cbn. destruct (tk b); congruence. Qed.
Lemma advance_going p a b r pv o s : plain b -> advance (going p a (b :: r) pv o s) = POk tt (going p b r a o s).
Proof. intros B. unfold advance. change (p_toks (going p a (b :: r) pv o s)) with (b :: r). rewrite next_plain; auto. Qed.
Lemma is_kind_true k t : tk t = k -> is_kind k t = true.
Proof. intros <-. unfold is_kind. destruct kind_eq_dec; congruence. Qed.
Lemma is_kind_false k t : tk t <> k -> is_kind k t = false.
Proof. intros N. unfold is_kind. destruct kind_eq_dec; congruence. Qed.
Lemma consume_going k p a b r pv o s : tk a = k -> plain b -> consume k (going p a (b :: r) pv o s) = POk tt (going p b r a o s).
Proof. intros A B. unfold consume, pbind, at_kind, get. cbn [p_cur going set_tok]. rewrite is_kind_true by auto. now apply advance_going. Qed.
Lemma emit_going c p a x pv o s : emit c (going p a x pv o s) = POk tt (going p a x pv (o ++ c) s).
Proof. reflexivity. Qed.
Lemma add_going n p a x pv o s : Forall text s -> lenN (table1 s n) <= 65536 ->
  add_name n (going p a x pv o s) = POk (index_of (table1 s n) n) (going p a x pv o (table1 s n)).
Proof. intros F L. unfold add_name. cbn [p_strs going set_tok set_out set_strs]. destruct (add_index s n F L) as [-> _]. reflexivity. Qed.

(** ** Unfolding *)
Lemma bind_ok {A B} (m : par A) (k : A -> par B) p a p' : m p = POk a p' -> pbind m k p = k a p'.
Proof. intros E. unfold pbind. now rewrite E. Qed.

Definition prio (k : kind) : N := match rule k with Ok (_, q) => q | Ub _ => 100 end.
Definition top (e : expr) : N := match e with XBin o _ _ => snd (operator o) | _ => 12 end.
Definition follows (e : expr) (t : token) : Prop := tk t <> TDot /\ prio (tk t) <= top e.

Lemma reads_top lv ws e : reads false lv ws e -> lv <= 12 -> lv <= top e.
Proof. induction 1; cbn [top]; intros L; try lia; auto; discriminate. Qed.
Lemma reads_weaken lv ws e : reads false lv ws e -> forall lv', lv' <= lv -> reads false lv' ws e.
Proof.
  induction 1; intros lv' L; try discriminate; try (econstructor; eauto; fail).
  - eapply rd_bin; eauto. lia.
Qed.

Lemma infix_stop E f lv ty p : prio (tk (p_cur p)) < lv -> lv <= 100 -> infix_loop E (S f) lv ty p = POk ty p.
Proof.
  intros L M. cbn [infix_loop]. unfold pbind, get. unfold prio in L. destruct (rule (tk (p_cur p))) as [[pr q]|u]; cbn [of_result ret snd]; [|lia].
  destruct (N.leb_spec lv q); [lia|reflexivity].
Qed.
Lemma operator_rule o k : k = fst (operator o) -> exists pr, rule k = Ok (pr, snd (operator o)).
Proof. intros ->. destruct o; cbn; eauto. Qed.
Lemma binary_code_spec o k a b : k = fst (operator o) ->
  binary_code k a b =
  (balance a b ++ [bin_op (is_float a || is_float b) o],
   match o with IAdd | ISub | IMul | IDiv => if is_float a || is_float b then TyFloat else TyInt | _ => TyInt end).
Proof. intros ->. destruct o, a, b; reflexivity. Qed.

Lemma infix_step E f lv ty o p a b r pv s out : tk a = fst (operator o) -> lv <= snd (operator o) -> plain b ->
  infix_loop E (S f) lv ty (going p a (b :: r) pv out s) =
  (let% rty := parse_precedence E f (snd (operator o) + 1) in
   let (c, ty') := binary_code (tk a) ty rty in
   emit c ;; infix_loop E f lv ty') (going p b r a out s).
Proof.
  intros A L B. cbn [infix_loop]. unfold pbind at 1. unfold get at 1. cbn [p_cur going set_tok].
  destruct (operator_rule o (tk a) A) as [pr R]. rewrite R. cbn [of_result]. unfold pbind at 1. unfold ret at 1. cbn [snd].
  destruct (N.leb_spec lv (snd (operator o))); [|lia].
  erewrite bind_ok; [reflexivity|]. now apply advance_going.
Qed.

(** ** Names *)
Lemma text_app a b : text a -> text b -> text (a ++ b).
Proof. intros A B. apply Forall_app. auto. Qed.
Lemma dotted_text ws n : dotted ws n -> text n.
Proof. induction 1; auto. apply text_app; auto. apply (text_app [46]); auto. repeat constructor; lia. Qed.
Lemma dotted_first n0 ws n : dotted ((TIdentifier, n0) :: ws) n -> lenN n0 <= lenN n /\ (ws = [] -> n0 = n) /\
  (ws <> [] -> lenN n < 256).
Proof.
  remember ((TIdentifier, n0) :: ws) as w eqn:E. intros D. revert n0 ws E. induction D as [n T|ws n d m D IH F T L]; intros n0 ws' E.
  - injection E as <- <-. split; [lia|]. split; [auto|congruence].
  - destruct ws as [|y ws]; [inversion D; destruct ws; discriminate|]. injection E as -> <-.
    destruct (IH n0 ws eq_refl) as (A & B & C). rewrite !lenN_app. change (lenN [46]) with 1. split; [lia|]. split; [destruct ws; discriminate|lia].
Qed.
Lemma map_snoc {A B} (f : A -> B) l a b : map f l = a ++ b -> exists l1 l2, l = l1 ++ l2 /\ map f l1 = a /\ map f l2 = b.
Proof.
  revert l. induction a as [|x a IH]; intros l E; [exists [], l; auto|]. destruct l as [|y l]; [discriminate|].
  cbn in E. injection E as E1 E2. destruct (IH l E2) as (l1 & l2 & -> & Q1 & Q2). exists (y :: l1), l2. cbn. rewrite E1, Q1. auto.
Qed.
Lemma path_spec ws n : dotted ws n -> forall n0 ws', ws = (TIdentifier, n0) :: ws' ->
  forall p l a x pv o s t r, map word_of l = ws' -> a :: x = l ++ t :: r -> Forall plain (l ++ [t]) ->
  exists k, forall f, (k <= f)%nat -> exists f', (f <= f' + k)%nat /\
  path_loop f n0 (going p a x pv o s) = path_loop f' n (going p t r (last l pv) o s).
Proof.
  induction 1 as [n T|ws n d m D IH F T L]; intros n0 ws' E p l a x pv o s t r M X PL.
  - injection E as <- <-. destruct l; [|discriminate]. cbn in X. injection X as -> ->. exists 0%nat. intros f _. exists f. split; [lia|reflexivity].
  - destruct ws as [|y ws]; [inversion D; destruct ws; discriminate|]. injection E as -> E. subst ws'.
    destruct (map_snoc _ _ _ _ M) as (l1 & l2 & -> & M1 & M2). destruct l2 as [|td [|tm [|]]]; try discriminate.
    cbn [map] in M2. injection M2 as Md Mm. rewrite <- app_assoc in X, PL. cbn [app] in X, PL.
    assert (PL1 : Forall plain (l1 ++ [td])) by (apply Forall_app in PL; destruct PL as [U V]; inversion V; apply Forall_app; auto).
    apply Forall_app in PL. destruct PL as [_ PL]. inversion PL as [|? ? Pd PL2]; subst. inversion PL2 as [|? ? Pm PL3]; subst. inversion PL3 as [|? ? Pt _]; subst.
    destruct (IH n0 _ eq_refl p l1 a x pv o s td (tm :: t :: r) eq_refl X PL1) as (k & K).
    exists (S k). intros f Lf. destruct (K f ltac:(lia)) as (f1 & L1 & E1).
    destruct f1 as [|f1]; [lia|]. exists f1. split; [lia|]. rewrite E1. cbn [path_loop].
    unfold pbind at 1. unfold at_kind, get. cbn [p_cur going set_tok]. rewrite is_kind_true by exact F.
    erewrite bind_ok; [|apply advance_going; auto]. unfold pbind at 1. cbn [p_cur going set_tok].
    erewrite bind_ok; [|apply consume_going; auto].
    destruct (N.leb_spec 256 (lenN n + 1 + lenN (ttext tm))); [lia|].
    replace (last (l1 ++ [td; tm]) pv) with tm; [reflexivity|]. replace (l1 ++ [td; tm]) with ((l1 ++ [td]) ++ [tm]) by (rewrite <- app_assoc; reflexivity). now rewrite last_last.
Qed.
Lemma load_spec n0 ws n : dotted ((TIdentifier, n0) :: ws) n ->
  forall p l a x pv o s t r, map word_of l = ws -> a :: x = l ++ t :: r -> Forall plain (l ++ [t]) -> tk t <> TDot ->
  Forall text s -> lenN (table1 s n) <= 65536 ->
  exists k, forall f, (k <= f)%nat ->
  load_name f n0 (going p a x pv o s) =
  POk TyUnknown (going p t r (last l pv) (o ++ [0x60] ++ le2 (index_of (table1 s n) n)) (table1 s n)).
Proof.
  intros D p l a x pv o s t r M X PL NT FS LT. destruct (dotted_first _ _ _ D) as (A & B & C).
  assert (LD : forall y pv', (let% id := add_name n in emit ([0x60] ++ le2 id) ;; ret TyUnknown) (going p t y pv' o s) =
    POk TyUnknown (going p t y pv' (o ++ [0x60] ++ le2 (index_of (table1 s n) n)) (table1 s n))).
  { intros y pv'. erewrite bind_ok; [|apply add_going; auto]. reflexivity. }
  destruct l as [|td l].
  - cbn in M. subst ws. rewrite <- (B eq_refl) in *. cbn in X. injection X as -> ->. exists 0%nat. intros f _. unfold load_name.
    unfold pbind at 1. unfold at_kind, get. cbn [p_cur going set_tok]. rewrite is_kind_false by auto. apply LD.
  - destruct (path_spec _ _ D n0 ws eq_refl p (td :: l) a x pv o s t r M X PL) as (k & K).
    exists (S k). intros f Lf. destruct (K f ltac:(lia)) as (f1 & L1 & E1). destruct f1 as [|f1]; [lia|]. unfold load_name.
    cbn in X. injection X as <- ->. assert (KD : tk a = TDot).
    { clear - D M. remember ((TIdentifier, n0) :: ws) as w eqn:E. cbn in M. assert (W : exists ws1, ws = word_of a :: ws1) by (rewrite <- M; eauto).
      clear M. revert n0 ws E W. induction D as [|ws n d m D IH F T L]; intros n0 ws' E (ws1 & W).
      - injection E as <- <-. discriminate.
      - destruct ws as [|y ws]; [inversion D; destruct ws; discriminate|]. injection E as -> E. destruct ws as [|z ws].
        + cbn in E. rewrite <- E in W. injection W as -> _. exact F.
        + apply (IH n0 (z :: ws) eq_refl). rewrite <- E in W. cbn in W. injection W as -> _. eauto. }
    unfold pbind at 1. unfold at_kind, get. cbn [p_cur going set_tok]. rewrite is_kind_true by auto.
    destruct (N.leb_spec 256 (lenN n0)) as [Z|Z]; [assert (lenN n < 256) by (apply C; rewrite <- M; discriminate); lia|].
    assert (E2 : path_loop f n0 (going p a (l ++ t :: r) pv o s) = POk (Some n) (going p t r (last (a :: l) pv) o s)).
    { rewrite E1. cbn [path_loop]. unfold pbind at 1. unfold at_kind, get. cbn [p_cur going set_tok]. rewrite is_kind_false by auto. reflexivity. }
    erewrite bind_ok; [|exact E2]. apply LD.
Qed.

(** ** Operands *)
Lemma prec_step E f lv p a b r pv o s : plain b ->
  parse_precedence E (S f) lv (going p a (b :: r) pv o s) =
  (let% rl := of_result (rule (tk a)) in
   match fst rl with
   | None => error ;; ret TyUnknown
   | Some RUnary =>
     let% op := get (fun p => tk (p_cur p)) in
     advance ;;
     let% ty := parse_precedence E f 11 in
     let (c, ty) := unary_code op ty in
     emit c ;; infix_loop E f lv ty
   | Some RGroup =>
     advance ;;
     let% ty := parse_precedence E f 1 in
     consume TRparen ;; infix_loop E f lv ty
   | Some RPrimary =>
     let% ty :=
       match tk a with
       | TNumber =>
         if is_float_literal (ttext a)
         then emit ([0x61] ++ le8 (parse_number_double E (ttext a))) ;; ret TyFloat
         else let% v := number_i64 (ttext a) in emit ([0x61] ++ le8 (ofZ 8 v)) ;; ret TyInt
       | TTrue => emit ([0x61] ++ le8 1) ;; ret TyInt
       | TFalse => emit ([0x61] ++ le8 0) ;; ret TyInt
       | TSelf => emit [0x64] ;; ret TyUnknown
       | _ =>
         match function1 a with
         | Some fn =>
           consume TLparen ;;
           let% x := parse_precedence E f 1 in
           consume TRparen ;;
           let (c, ty) := fn x in
           emit c ;; ret ty
         | None =>
           if match_keyword a "pow" then
             consume TLparen ;;
             let% x := parse_precedence E f 1 in
             when (is_int x) (emit [0x90]) ;;
             consume TComma ;;
             let% y := parse_precedence E f 1 in
             when (is_int y) (emit [0x90]) ;;
             consume TRparen ;;
             emit [0x89] ;; ret TyFloat
           else load_name f (ttext a)
         end
       end in
     infix_loop E f lv ty
   end) (going p b r a o s).
Proof. intros B. cbn [parse_precedence]. erewrite bind_ok; [|apply advance_going; auto]. reflexivity. Qed.

Lemma float_literal_spec s : is_float_literal s = true <-> In 46 s \/ In 101 s \/ In 69 s.
Proof.
  unfold is_float_literal. rewrite existsb_exists. split.
  - intros (c & I & C). destruct (N.eqb_spec c 46) as [->|_]; auto. destruct (N.eqb_spec c 101) as [->|_]; auto.
    destruct (N.eqb_spec c 69) as [->|_]; auto. discriminate.
  - intros [I|[I|I]]; eexists; (split; [exact I|reflexivity]).
Qed.
Lemma int_text_value s v : int_text s v -> parse_number_i64 s = Ok v.
Proof.
  destruct 1 as [s v L|s v L X]; destruct (i64_spec s v L) as (A & B & _); auto. rewrite B.
  destruct (N.eqb_spec (v mod 2 ^ 64) (2 ^ 63)); [contradiction|reflexivity].
Qed.
Lemma literal_no_dot s v : literal s v -> ~ In 46 s.
Proof.
  assert (D : forall c d, hex_char c d -> c <> 46) by (intros c d [[A ->]|(A & [->| ->])]; lia).
  destruct 1 as [s ds F|x s ds NE X F]; intros I.
  - induction F as [|c d s ds C F IH]; [destruct I|]. destruct I as [I|I]; auto. apply (D c d); auto. left; auto.
  - destruct I as [I|[I|I]]; [lia|lia|]. clear NE. induction F as [|c d s ds C F IH]; [destruct I|]. destruct I as [I|I]; auto. exact (D c d C I).
Qed.
Lemma int_text_no_dot s v : int_text s v -> ~ In 46 s.
Proof. destruct 1 as [s v L|s v L X]; [eapply literal_no_dot; eauto|]. intros [I|I]; [lia|]. eapply literal_no_dot; eauto. Qed.

Lemma same_text_spec a b : same_text a b = true <-> a = b.
Proof. unfold same_text. destruct list_eq_dec; split; congruence. Qed.
Lemma function1_fn a f : word_of a = (TIdentifier, fn_text f) ->
  exists g, function1 a = Some g /\ forall x,
    g x = ((match f with FFloat | FInt => [] | _ => to_float x end) ++ [fn_op f], match f with FInt => TyInt | _ => TyFloat end).
Proof.
  intros W. injection W as K T. unfold function1, match_keyword. rewrite (is_kind_true _ _ K), T. destruct f; cbn [andb];
  repeat match goal with |- context [same_text ?u ?v] => let y := eval vm_compute in (same_text u v) in change (same_text u v) with y end;
  cbv iota; eexists; (split; [reflexivity|]); intros x; reflexivity.
Qed.
Lemma match_other a n kw : word_of a = (TIdentifier, n) -> n <> chars kw -> match_keyword a kw = false.
Proof.
  intros W X. injection W as K T. unfold match_keyword. rewrite (is_kind_true _ _ K), T. cbn [andb].
  unfold same_text. destruct list_eq_dec; [contradiction|reflexivity].
Qed.
Lemma function1_none a n : word_of a = (TIdentifier, n) -> ~ callable n -> function1 a = None /\ match_keyword a "pow" = false.
Proof.
  intros W C. split; [|apply (match_other a n); auto; intros ->; apply C; left; reflexivity].
  unfold function1.
  rewrite (match_other a n "sin"), (match_other a n "cos"), (match_other a n "tan"), (match_other a n "sqrt"), (match_other a n "log"),
    (match_other a n "abs"), (match_other a n "float"), (match_other a n "int"); auto; intros ->; apply C; right.
  - exists FInt; reflexivity. - exists FFloat; reflexivity. - exists FAbs; reflexivity. - exists FLog; reflexivity.
  - exists FSqrt; reflexivity. - exists FTan; reflexivity. - exists FCos; reflexivity. - exists FSin; reflexivity.
Qed.

Lemma names_text full lv ws e : reads full lv ws e -> Forall text (names e).
Proof.
  induction 1; cbn [names]; auto; try (apply Forall_app; auto).
  apply Forall_cons; auto. eapply dotted_text; eauto.
Qed.
Lemma code_ext d id id' e : (forall n, In n (names e) -> id n = id' n) -> code d id e = code d id' e.
Proof.
  induction e; cbn [names code]; intros X; auto.
  - now rewrite X by (left; auto).
  - now rewrite IHe1, IHe2 by (intros; apply X; apply in_or_app; auto).
  - now rewrite IHe.
  - now rewrite IHe.
  - now rewrite IHe1, IHe2 by (intros; apply X; apply in_or_app; auto).
Qed.

Lemma last_cons {A} (l : list A) a d : last (a :: l) d = last l a.
Proof. revert a d. induction l as [|b l IH]; intros a d; [reflexivity|]. change (last (a :: b :: l) d) with (last (b :: l) d). rewrite !IH. reflexivity. Qed.
Lemma last_app {A} (l m : list A) d : last (l ++ m) d = last m (last l d).
Proof. revert d. induction l as [|a l IH]; intros d; [reflexivity|]. cbn [app]. rewrite !last_cons. apply IH. Qed.
Lemma reads_nonempty full lv ws e : reads full lv ws e -> ws <> [].
Proof. induction 1; try discriminate. destruct ws; [contradiction|discriminate]. Qed.
Lemma cons_map {A B} (f : A -> B) l a b : map f l = a :: b -> exists x l', l = x :: l' /\ f x = a /\ map f l' = b.
Proof. destruct l as [|x l]; [discriminate|]. cbn. intros E. injection E as E1 E2. eauto. Qed.

Section Parse.
Context (E : env).
Notation dbl := (parse_number_double E).

Definition parsed lv (e : expr) (l : list token) : Prop :=
  forall p a x pv o s t r T, a :: x = l ++ t :: r -> Forall plain (l ++ [t]) -> follows e t -> Forall text s ->
  lenN (table s (names e)) <= 65536 -> (exists y, T = table s (names e) ++ y) ->
  exists n, forall f, (n <= f)%nat -> exists f', (f <= f' + n)%nat /\
  parse_precedence E f lv (going p a x pv o s) =
  infix_loop E f' lv (type_of e) (going p t r (last l pv) (o ++ code dbl (index_of T) e) (table s (names e))).
(** ... and stopping there *)
Definition parsed_all lv (e : expr) (l : list token) : Prop :=
  forall p a x pv o s t r T, a :: x = l ++ t :: r -> Forall plain (l ++ [t]) -> tk t <> TDot -> prio (tk t) < lv -> Forall text s ->
  lenN (table s (names e)) <= 65536 -> (exists y, T = table s (names e) ++ y) ->
  exists n, forall f, (n <= f)%nat ->
  parse_precedence E f lv (going p a x pv o s) =
  POk (type_of e) (going p t r (last l pv) (o ++ code dbl (index_of T) e) (table s (names e))).

Lemma stop_there lv e l : parsed lv e l -> lv <= 12 -> lv <= top e -> parsed_all lv e l.
Proof.
  intros P L LT p a x pv o s t r T X PL ND PR FS LN Y.
  destruct (P p a x pv o s t r T X PL ltac:(split; [auto|lia]) FS LN Y) as (n & K).
  exists (S n). intros f Lf. destruct (K f ltac:(lia)) as (f' & L' & ->). destruct f' as [|f']; [lia|].
  apply infix_stop; [exact PR|lia].
Qed.

(** Operands without sub-expressions *)
Lemma atom_case lv e tok : rule (tk tok) = Ok (Some RPrimary, 0) -> names e = [] ->
  (forall f p b r o s, (match tk tok with
     | TNumber =>
       if is_float_literal (ttext tok)
       then emit ([0x61] ++ le8 (parse_number_double E (ttext tok))) ;; ret TyFloat
       else let% v := number_i64 (ttext tok) in emit ([0x61] ++ le8 (ofZ 8 v)) ;; ret TyInt
     | TTrue => emit ([0x61] ++ le8 1) ;; ret TyInt
     | TFalse => emit ([0x61] ++ le8 0) ;; ret TyInt
     | TSelf => emit [0x64] ;; ret TyUnknown
     | _ => f
     end) (going p b r tok o s) = POk (type_of e) (going p b r tok (o ++ code dbl (fun _ => 0) e) s)) ->
  parsed lv e [tok].
Proof.
  intros R NM C p a x pv o s t r T X PL FO FS LN Y. cbn in X. injection X as -> ->.
  assert (PT : plain t) by (inversion PL as [|? ? ? Q]; inversion Q; auto).
  exists 1%nat. intros [|f] Lf; [lia|]. exists f. split; [lia|]. rewrite prec_step by auto. rewrite R.
  cbn [of_result]. unfold pbind at 1. unfold ret at 1. cbn [fst]. unfold pbind at 1. rewrite C.
  cbn [last]. rewrite NM. cbn [table fold_left]. rewrite (code_ext dbl _ (index_of T)); [reflexivity|]. rewrite NM. intros n [].
Qed.

Lemma fixed_of k t : fixed k (word_of t) -> tk t = k.
Proof. exact (fun x => x). Qed.
Lemma parse_reads lv0 ws e : reads false lv0 ws e -> lv0 <= 12 -> forall lv, lv <= lv0 -> forall l, map word_of l = ws -> parsed lv e l.
Proof.
  induction 1 as [lv0 s v IT HX|lv0 s IN|lv0 w W|lv0 w W|lv0 w W|lv0 n ws name D NC|lv0 f p ws q e Fp R IH Fq
    |lv0 p ws c us q a b Fp Ra IHa Fc Rb IHb Fq|lv0 o w ws us a b Fw L Ra IHa Rb IHb|lv0 o w ws a F|lv0 p ws q e F];
    intros LV0 lv LV l M; try discriminate.
  - apply cons_map in M. destruct M as (tok & l' & -> & WT & M). destruct l'; [|discriminate]. injection WT as K TX.
    apply atom_case; [rewrite K; reflexivity|reflexivity|]. intros m p b r o st. rewrite K, TX.
    destruct (is_float_literal s) eqn:FL.
    { apply float_literal_spec in FL. destruct (HX eq_refl) as [A B]. destruct FL as [I|[I|I]]; [|contradiction|contradiction].
      exfalso. eapply int_text_no_dot; eauto. }
    unfold number_i64. rewrite (int_text_value _ _ IT). cbn [of_result]. unfold pbind at 1. unfold ret at 1. unfold pbind. rewrite emit_going.
    unfold ret. cbn [type_of code]. rewrite le8_bytes. reflexivity.
  - apply cons_map in M. destruct M as (tok & l' & -> & WT & M). destruct l'; [|discriminate]. injection WT as K TX.
    apply atom_case; [rewrite K; reflexivity|reflexivity|]. intros m p b r o st. rewrite K, TX.
    assert (FL : is_float_literal s = true) by (apply float_literal_spec; auto). rewrite FL.
    unfold pbind. rewrite emit_going. unfold ret. cbn [type_of code]. rewrite le8_bytes. reflexivity.
  - apply cons_map in M. destruct M as (tok & l' & -> & WT & M). destruct l'; [|discriminate]. rewrite <- WT in W. apply fixed_of in W.
    apply atom_case; [rewrite W; reflexivity|reflexivity|]. intros m p b r o st. rewrite W. unfold pbind. rewrite emit_going. reflexivity.
  - apply cons_map in M. destruct M as (tok & l' & -> & WT & M). destruct l'; [|discriminate]. rewrite <- WT in W. apply fixed_of in W.
    apply atom_case; [rewrite W; reflexivity|reflexivity|]. intros m p b r o st. rewrite W. unfold pbind. rewrite emit_going. reflexivity.
  - apply cons_map in M. destruct M as (tok & l' & -> & WT & M). destruct l'; [|discriminate]. rewrite <- WT in W. apply fixed_of in W.
    apply atom_case; [rewrite W; reflexivity|reflexivity|]. intros m p b r o st. rewrite W. unfold pbind. rewrite emit_going. reflexivity.
  - (* names *)
    apply cons_map in M. destruct M as (tok & l' & -> & WT & M).
    intros p a x pv o s t r T X PL [ND PR] FS LN Y. cbn [app] in X. injection X as -> X. cbn [app] in PL. inversion PL as [|? ? Ptok PL']; subst.
    assert (exists b x', l' ++ t :: r = b :: x' /\ plain b) as (b & x' & EX & Pb).
    { destruct l' as [|b l']; cbn in PL' |- *; inversion PL'; eauto. }
    cbn [names table fold_left] in LN, Y |- *. destruct (function1_none _ _ WT NC) as [F1 F2].
    destruct (load_spec _ _ _ D p l' b x' tok o s t r eq_refl ltac:(symmetry; exact EX) PL' ND FS LN) as (k & K).
    exists (S k). intros [|f] Lf; [lia|]. exists f. split; [lia|]. rewrite EX, prec_step by auto. injection WT as KT TX. rewrite KT.
    cbn [rule of_result]. unfold pbind at 1. unfold ret at 1. cbn [fst]. rewrite F1, F2, TX.
    erewrite bind_ok; [|apply K; lia]. rewrite last_cons. cbn [type_of code]. rewrite le2_bytes.
    destruct Y as [y ->]. rewrite index_in; [reflexivity|]. apply add_index; auto.
  - (* functions *)
    apply cons_map in M. destruct M as (tok & l' & -> & WT & M). apply cons_map in M. destruct M as (tp & l'' & -> & WP & M).
    apply map_snoc in M. destruct M as (l & lq & -> & ML & MQ). apply cons_map in MQ. destruct MQ as (tq & lz & -> & WQ & MZ). destruct lz; [|discriminate].
    rewrite <- WP in Fp. rewrite <- WQ in Fq. apply fixed_of in Fp, Fq.
    intros p0 a x pv o s t r T X PL [ND PR] FS LN Y. cbn [app] in X. injection X as -> X. subst x. cbn [app] in PL. rewrite <- app_assoc in PL. cbn [app] in PL. rewrite <- app_assoc. cbn [app].
    inversion PL as [|? ? Ptok PL1]; subst. inversion PL1 as [|? ? Ptp PL2]; subst.
    assert (PLq : Forall plain (l ++ [tq])) by (apply Forall_app in PL2; destruct PL2 as [U V]; inversion V; apply Forall_app; auto).
    assert (Pt : plain t) by (apply Forall_app in PL2; destruct PL2 as [U V]; inversion V as [|? ? ? V2]; inversion V2; auto).
    assert (exists b x', l ++ tq :: t :: r = b :: x' /\ plain b) as (b & x' & EX & Pb).
    { destruct l as [|b l]; cbn in PLq |- *; inversion PLq; eauto. }
    cbn [names] in *. specialize (IH ltac:(lia) 1 ltac:(lia) l eq_refl).
    destruct (stop_there _ _ _ IH ltac:(lia) (reads_top _ _ _ R ltac:(lia)) p0 b x' tp o s tq (t :: r) T ltac:(symmetry; exact EX) PLq
      ltac:(congruence) ltac:(rewrite Fq; reflexivity) FS LN Y) as (n & K).
    exists (S n). intros [|f0] Lf; [lia|]. exists f0. split; [lia|]. rewrite prec_step by auto.
    destruct (function1_fn _ _ WT) as (g & G1 & G2). injection WT as KT TX. rewrite KT. cbn [rule of_result]. unfold pbind at 1. unfold ret at 1. cbn [fst].
    rewrite G1. rewrite EX. unfold pbind at 1. erewrite bind_ok; [|apply consume_going; auto].
    erewrite bind_ok; [|apply K; lia]. erewrite bind_ok; [|apply consume_going; auto]. rewrite G2.
    erewrite bind_ok; [|apply emit_going]. unfold ret. cbn [type_of code]. rewrite !last_cons, last_app. cbn [last]. rewrite <- !app_assoc. reflexivity.
  - (* pow *)
    apply cons_map in M. destruct M as (tok & l' & -> & WT & M). apply cons_map in M. destruct M as (tp & l'' & -> & WP & M).
    apply map_snoc in M. destruct M as (l & lq & -> & ML & MQ). apply cons_map in MQ. destruct MQ as (tc & lz & -> & WC & MZ).
    cbn [app] in MZ. apply map_snoc in MZ. destruct MZ as (m & lz2 & -> & MM & MQ). apply cons_map in MQ. destruct MQ as (tq & lz3 & -> & WQ & MZ). destruct lz3; [|discriminate].
    rewrite <- WP in Fp. rewrite <- WQ in Fq. rewrite <- WC in Fc. apply fixed_of in Fp, Fq, Fc.
    intros p0 aa x pv o s t r T X PL [ND PR] FS LN Y. cbn [app] in X. injection X as -> X. subst x.
    assert (RA : (l ++ tc :: m ++ [tq]) ++ t :: r = l ++ tc :: m ++ tq :: t :: r) by (rewrite <- app_assoc; cbn [app]; rewrite <- app_assoc; reflexivity).
    rewrite RA. clear RA. cbn [app] in PL. inversion PL as [|? ? Ptok PL1]; subst. inversion PL1 as [|? ? Ptp PL2]; subst.
    apply Forall_app in PL2. destruct PL2 as [PL2 PT]. assert (Pt : plain t) by (inversion PT; auto).
    apply Forall_app in PL2. destruct PL2 as [PLl PL2]. inversion PL2 as [|? ? Pc PLm]; subst.
    apply Forall_app in PLm. destruct PLm as [PLm PQ]. assert (Pq : plain tq) by (inversion PQ; auto).
    assert (exists b x', l ++ tc :: m ++ tq :: t :: r = b :: x' /\ plain b) as (b1 & x1 & EX & Pb).
    { destruct l as [|b1 l]; cbn in PLl |- *; [eauto|]. inversion PLl; eauto. }
    assert (exists b x', m ++ tq :: t :: r = b :: x' /\ plain b) as (b2 & x2 & EX2 & Pb2).
    { destruct m as [|b2 m]; cbn in PLm |- *; [eauto|]. inversion PLm; eauto. }
    cbn [names] in *. rewrite table_snoc in LN, Y |- *. pose proof (table_len (table s (names a)) (names b)) as TL.
    assert (YA : exists y, T = table s (names a) ++ y).
    { destruct Y as [y ->]. destruct (table_app (names b) (table s (names a))) as [z ->]. exists (z ++ y). now rewrite app_assoc. }
    assert (FT : Forall text (table s (names a))) by (apply table_text; auto; eapply names_text; eauto).
    specialize (IHa ltac:(lia) 1 ltac:(lia) l eq_refl). specialize (IHb ltac:(lia) 1 ltac:(lia) m eq_refl).
    destruct (stop_there _ _ _ IHa ltac:(lia) (reads_top _ _ _ Ra ltac:(lia)) p0 b1 x1 tp o s tc (m ++ tq :: t :: r) T ltac:(symmetry; exact EX)
      ltac:(apply Forall_app; auto) ltac:(congruence) ltac:(rewrite Fc; reflexivity) FS ltac:(lia) YA) as (n1 & K1).
    destruct (stop_there _ _ _ IHb ltac:(lia) (reads_top _ _ _ Rb ltac:(lia)) p0 b2 x2 tc (o ++ code dbl (index_of T) a ++ to_float (type_of a)) (table s (names a)) tq (t :: r) T ltac:(symmetry; exact EX2)
      ltac:(apply Forall_app; auto) ltac:(congruence) ltac:(rewrite Fq; reflexivity) FT LN Y) as (n2 & K2).
    exists (S (n1 + n2)). intros [|f0] Lf; [lia|]. exists f0. split; [lia|]. rewrite prec_step by auto.
    assert (F1 : function1 tok = None /\ match_keyword tok "pow" = true).
    { injection WT as KT TX. unfold function1, match_keyword. rewrite (is_kind_true _ _ KT), TX. split; reflexivity. }
    destruct F1 as [F1 F2]. injection WT as KT TX. rewrite KT. cbn [rule of_result]. unfold pbind at 1. unfold ret at 1. cbn [fst].
    rewrite F1, F2. rewrite EX. unfold pbind at 1. erewrite bind_ok; [|apply consume_going; auto].
    erewrite bind_ok; [|apply K1; lia].
    assert (WH : forall A t' (k : unit -> par A) p a x pv o s, pbind (when (is_int t') (emit [0x90])) k (going p a x pv o s) = k tt (going p a x pv (o ++ to_float t') s)).
    { intros A t' k p a' x pv' o' s'. unfold to_float. destruct (is_int t'); cbn [when]; [reflexivity|]. rewrite app_nil_r. reflexivity. }
    rewrite WH. rewrite EX2. erewrite bind_ok; [|apply consume_going; auto]. rewrite <- app_assoc. erewrite bind_ok; [|apply K2; lia].
    rewrite WH. erewrite bind_ok; [|apply consume_going; auto]. erewrite bind_ok; [|apply emit_going]. unfold ret. cbn [type_of code].
    replace (last (tok :: tp :: l ++ tc :: m ++ [tq]) pv) with tq.
    2:{ change (tok :: tp :: l ++ tc :: m ++ [tq]) with ((tok :: tp :: l) ++ (tc :: m) ++ [tq]). rewrite app_assoc, last_last. reflexivity. }
    rewrite <- !app_assoc. reflexivity.
  - (* binary operators *)
    apply map_snoc in M. destruct M as (la & lq & -> & ML & MQ). apply cons_map in MQ. destruct MQ as (tw & m & -> & WW & MM).
    rewrite <- WW in Fw. apply fixed_of in Fw. intros p0 aa x pv o0 s t r T X PL [ND PR] FS LN Y.
    rewrite <- app_assoc in X, PL. cbn [app] in X, PL.
    apply Forall_app in PL. destruct PL as [PLl PL]. inversion PL as [|? ? Pw PLm]; subst.
    assert (exists b x', m ++ t :: r = b :: x' /\ plain b) as (b2 & x2 & EX2 & Pb2).
    { destruct m as [|b2 m]; cbn in PLm |- *; inversion PLm; eauto. }
    cbn [names] in *. rewrite table_snoc in LN, Y |- *. pose proof (table_len (table s (names a)) (names b)) as TL.
    assert (YA : exists y, T = table s (names a) ++ y).
    { destruct Y as [y ->]. destruct (table_app (names b) (table s (names a))) as [z ->]. exists (z ++ y). now rewrite app_assoc. }
    assert (FT : Forall text (table s (names a))) by (apply table_text; auto; eapply names_text; eauto).
    assert (OL : snd (operator o) <= 10) by (destruct o; cbn; lia).
    assert (PW : prio (tk tw) = snd (operator o)) by (unfold prio; destruct (operator_rule o (tk tw) Fw) as [pr ->]; reflexivity).
    assert (ND' : tk tw <> TDot) by (rewrite Fw; destruct o; discriminate).
    pose proof (reads_top _ _ _ Ra ltac:(lia)) as Ta.
    destruct (IHa ltac:(lia) lv ltac:(lia) la eq_refl p0 aa x pv o0 s tw (m ++ t :: r) T X
      ltac:(apply Forall_app; auto) ltac:(split; [auto|lia]) FS ltac:(lia) YA) as (n1 & K1).
    specialize (IHb ltac:(lia) _ (N.le_refl _) m eq_refl).
    destruct (stop_there _ _ _ IHb ltac:(lia) (reads_top _ _ _ Rb ltac:(lia)) p0 b2 x2 tw (o0 ++ code dbl (index_of T) a) (table s (names a)) t r T
      ltac:(symmetry; exact EX2) PLm ND ltac:(cbn [top] in PR; lia) FT LN Y) as (n2 & K2).
    exists (S (n1 + n2)). intros f Lf. destruct (K1 f ltac:(lia)) as (f1 & L1 & E1). destruct f1 as [|f1]; [lia|].
    exists f1. split; [lia|]. rewrite E1, EX2. rewrite (infix_step _ _ _ _ o) by (auto; lia).
    erewrite bind_ok; [|apply K2; lia]. rewrite (binary_code_spec o) by exact Fw.
    erewrite bind_ok; [|apply emit_going]. cbn [type_of code].
    replace (last (la ++ tw :: m) pv) with (last m tw) by (rewrite last_app, last_cons; reflexivity).
    rewrite <- !app_assoc. destruct o; reflexivity.
Qed.
End Parse.

Lemma expression_spec E ws e : reads false 1 ws e -> forall p l t r, map word_of l = ws -> before p l t r ->
  tk t = TRparen \/ tk t = TComma -> Forall text (p_strs p) ->
  forall tab, tab = fst (intern (p_strs p) (names e)) -> lenN tab <= 65536 ->
  exists n, forall f, (n <= f)%nat -> parse_expression E f p =
    POk (type_of e) (set_out (p_out p ++ code (parse_number_double E) (index_of tab) e) (set_strs tab (beyond p l t r))).
Proof.
  intros R p l t r M [X PL] KT FS tab -> LN. rewrite table_intern in *.
  destruct (stop_there E _ _ _ (parse_reads E 1 ws e R ltac:(lia) 1 ltac:(lia) l M) ltac:(lia) (reads_top _ _ _ R ltac:(lia))
    p (p_cur p) (p_toks p) (p_prev p) (p_out p) (p_strs p) t r (table (p_strs p) (names e)) X PL) as (n & K); auto.
  - destruct KT; congruence.
  - destruct KT as [-> | ->]; reflexivity.
  - exists []. now rewrite app_nil_r.
  - exists n. intros f Lf. unfold parse_expression. rewrite (going_self p) at 1. rewrite K by lia. reflexivity.
Qed.

(** Integer expressions *)
Lemma integer_type id e i : integer_expr id e = Some i -> is_float (type_of e) = false.
Proof.
  revert i. induction e; intros i H; cbn [integer_expr type_of] in *; try discriminate; try reflexivity.
  - destruct (integer_expr id e1) as [x|]; [|discriminate]. destruct (integer_expr id e2) as [y|]; [|discriminate].
    rewrite (IHe1 _ eq_refl), (IHe2 _ eq_refl). destruct o; reflexivity.
  - destruct (integer_expr id e) as [x|]; [|discriminate]. rewrite (IHe _ eq_refl). destruct o; reflexivity.
Qed.
Lemma integer_code dbl id e : forall i, integer_expr id e = Some i -> code dbl id e = postfix i.
Proof.
  induction e; intros i H; cbn [integer_expr code] in *; try discriminate.
  - injection H as <-. reflexivity.
  - injection H as <-. reflexivity.
  - destruct (integer_expr id e1) as [x|] eqn:E1; [|discriminate]. destruct (integer_expr id e2) as [y|] eqn:E2; [|discriminate].
    injection H as <-. cbn [postfix]. rewrite (IHe1 _ eq_refl), (IHe2 _ eq_refl). unfold balance.
    rewrite (integer_type _ _ _ E1), (integer_type _ _ _ E2). reflexivity.
  - destruct (integer_expr id e) as [x|] eqn:E1; [|discriminate]. injection H as <-. cbn [postfix]. rewrite (IHe _ eq_refl), (integer_type _ _ _ E1).
    destruct o; reflexivity.
Qed.

(** Every alternating sequence of operands and operators is an expression *)
Definition fine lv (x : word * ibin * list word) : Prop :=
  let '(w, o, ws) := x in fixed (fst (operator o)) w /\ lv <= snd (operator o) /\ exists e, reads false 12 ws e.
Lemma flat_app a b : flat (a ++ b) = flat a ++ flat b.
Proof. induction a as [|[[w o] ws] a IH]; cbn; auto. now rewrite IH, app_assoc. Qed.
(** the last operator of the lowest level *)
Lemma split_min l lv : Forall (fine lv) l -> l <> [] -> exists l1 w o ws l2, l = l1 ++ (w, o, ws) :: l2 /\
  lv <= snd (operator o) /\ Forall (fine (snd (operator o))) l1 /\ Forall (fine (snd (operator o) + 1)) l2.
Proof.
  induction l as [|[[w o] ws] l IH]; intros F NE; [congruence|]. inversion F as [|? ? Fx Fl]; subst. destruct Fx as (A & B & C).
  destruct l as [|y l'].
  - exists [], w, o, ws, []. repeat split; auto.
  - destruct (IH Fl ltac:(discriminate)) as (l1 & w' & o' & ws' & l2 & E & L & F1 & F2). rewrite E in *.
    destruct (N.leb_spec (snd (operator o')) (snd (operator o))) as [Q|Q].
    + exists ((w, o, ws) :: l1), w', o', ws', l2. repeat split; auto. constructor; auto. repeat split; auto.
    + exists [], w, o, ws, (l1 ++ (w', o', ws') :: l2). repeat split; auto. apply Forall_app. split; [|constructor].
      * eapply Forall_impl; [|exact F1]. intros [[w1 o1] ws1] (U & V & W). repeat split; auto. lia.
      * assert (FX : fine lv (w', o', ws')) by (apply Forall_app in Fl; destruct Fl as [_ Fl]; inversion Fl; auto).
        destruct FX as (U & V & W). repeat split; auto. lia.
      * eapply Forall_impl; [|exact F2]. intros [[w1 o1] ws1] (U & V & W). repeat split; auto. lia.
Qed.
Lemma flat_reads n : forall l, (length l < n)%nat -> forall lv ws e, lv <= 11 -> reads false 12 ws e -> Forall (fine lv) l ->
  exists e', reads false lv (ws ++ flat l) e'.
Proof.
  induction n as [|n IH]; intros l Ln lv ws e LV R F; [lia|]. destruct l as [|x l].
  - exists e. cbn. rewrite app_nil_r. eapply reads_weaken; eauto. lia.
  - destruct (split_min (x :: l) lv F ltac:(discriminate)) as (l1 & w & o & us & l2 & E & L & F1 & F2).
    assert (LL : (length (l1 ++ (w, o, us) :: l2) < S n)%nat) by (rewrite <- E; exact Ln). rewrite app_length in LL. cbn [length] in LL.
    assert (OL : snd (operator o) <= 10) by (destruct o; cbn; lia).
    destruct (IH l1 ltac:(lia) (snd (operator o)) ws e ltac:(lia) R F1) as [ea Ra].
    assert (FX : fine lv (w, o, us)) by (rewrite E in F; apply Forall_app in F; destruct F as [_ F]; inversion F; auto).
    destruct FX as (A & _ & eb0 & Rb0).
    destruct (IH l2 ltac:(lia) (snd (operator o) + 1) us eb0 ltac:(lia) Rb0 F2) as [eb Rb].
    exists (XBin o ea eb). rewrite E, flat_app. cbn [flat]. rewrite app_assoc. eapply rd_bin; eauto.
Qed.
