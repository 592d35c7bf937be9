(** Compiling packets of decorated fields, enumerations and conditionals. *)
From Coq Require Import Strings.String ZifyBool ZifyNat ZifyN.
From Verif Require Import Base SpecBytes SpecVM ModelVM ModelImage ModelText SpecText ModelNames ModelParse ModelSchema SpecParse LemBase LemStr LemText
  LemParse SpecNames LemNames SpecPacket LemPacket SpecMessage SpecFlow LemLayout SpecSource.
Ltac Zify.zify_post_hook ::= Z.div_mod_to_equations.

(** ** Numbers *)
Lemma int_types ty n : type_bytes ty = Some n -> In (ty, n) [(0x10, 1); (0x11, 2); (0x12, 4); (0x13, 8); (0x14, 1); (0x15, 2); (0x16, 4); (0x17, 8)].
Proof.
  unfold type_bytes. intros E. destruct ty as [|q]; [discriminate|].
  do 5 (destruct q as [q|q|]; try discriminate); injection E as <-; cbn; auto 12.
Qed.
Lemma int_width ty n : type_bytes ty = Some n -> width ty = n.
Proof. intros E. apply int_types in E. cbn [In] in E. decompose [or] E; try contradiction; match goal with H : _ = _ |- _ => injection H as <- <- end; reflexivity. Qed.
Lemma ofZ_wrap z : ofZ 8 (wrap64 z) = ofZ 8 z.
Proof.
  unfold ofZ, wrap64. f_equal. change (2 ^ Z.of_N (8 * 8))%Z with (2 ^ 64)%Z.
  change (2 ^ 64)%Z with 18446744073709551616%Z. change (2 ^ 63)%Z with 9223372036854775808%Z. lia.
Qed.
Lemma writes_i64 ty s z : writes ty s z -> parse_number_i64 s = Ok (wrap64 z).
Proof.
  destruct 1 as [s n L I|s n SG L I B]; destruct (i64_spec s n L) as (A & C & _); auto. rewrite C.
  rewrite N.mod_small by (change (2 ^ 64) with 18446744073709551616; change (2 ^ 63) with 9223372036854775808 in B; lia).
  destruct (N.eqb_spec n (2 ^ 63)); [lia|reflexivity].
Qed.
Lemma writes_type ty s z : writes ty s z -> in_type ty z.
Proof. destruct 1; auto. Qed.
Lemma writes_u32 ty s z : writes ty s z -> 0x10 <= ty <= 0x12 -> Z.of_N (parse_number_u32 s) = z.
Proof.
  destruct 1 as [s n L I|s n SG L I B]; intros T.
  - unfold parse_number_u32. rewrite (acc_number_spec 32 s n) by (lia || exact L). unfold in_type in I.
    assert (ty = 16 \/ ty = 17 \/ ty = 18) as D by lia. destruct D as [-> | [-> | ->]]; cbn in I; rewrite N.mod_small; lia.
  - unfold type_signed in SG. lia.
Qed.
(** The bytes of an integer *)
Definition int_bytes (ty : N) (z : Z) : list N := bytes_of LE (N.to_nat (width ty)) (pattern ty z).
Lemma le_of_bytes ty z v : type_bytes ty <> None -> ofZ 8 z = ofZ 8 (Z.of_N v) -> le_of ty v = int_bytes ty z.
Proof.
  intros T E. destruct (type_bytes ty) as [n|] eqn:TB; [|congruence]. clear T. apply int_types in TB. unfold ofZ in E.
  change (2 ^ Z.of_N (8 * 8))%Z with 18446744073709551616%Z in E.
  assert (M : (z mod 18446744073709551616 = Z.of_N v mod 18446744073709551616)%Z) by lia. clear E. unfold int_bytes, pattern.
  assert (G : forall k m, m = (2 ^ (8 * Z.of_N k))%Z -> In k [1; 2; 4; 8] -> bytes_of LE (N.to_nat k) (Z.to_N (z mod m)) = bytes_of LE (N.to_nat k) v).
  { intros k m -> I. rewrite <- (bytes_of_mod LE (N.to_nat k) v). f_equal.
    cbn [In] in I. decompose [or] I; try contradiction; subst k;
    match goal with |- _ = v mod ?a => let a' := eval vm_compute in a in change a with a' end;
    match goal with |- context [(z mod ?a)%Z] => let a' := eval vm_compute in a in change a with a' end; lia. }
  cbn [In] in TB. decompose [or] TB; try contradiction; match goal with H : _ = _ |- _ => injection H as <- <- end;
    match goal with |- context [width ?t] => let w := eval vm_compute in (width t) in change (width t) with w end;
    rewrite (G _ _ eq_refl) by (cbn; auto); cbn [le_of]; rewrite ?le2_bytes, ?le4_bytes, ?le8_bytes; reflexivity.
Qed.

(** ** Decorators *)
Definition dd (c : option Z) (be : bool) (rg : option (token * token)) : deco :=
  mkd None (option_map (ofZ 8) c) be false rg KNone 0x3FF0000000000000 0 0 [] [] None 0 0 0 false false false false None.
Definition rg_ok (ty : N) (rz : option (Z * Z)) (rg : option (token * token)) : Prop :=
  match rz, rg with
  | None, None => True
  | Some (lo, hi), Some (tl, th) => writes ty (ttext tl) lo /\ writes ty (ttext th) hi /\ (lo <= hi)%Z
  | _, _ => False
  end.
Lemma next_of (ts : list token) t r : Forall plain (ts ++ [t]) -> exists h hs, ts ++ t :: r = h :: hs /\ plain h.
Proof. intros P. destruct ts as [|h hs]; [exists t, r|exists h, (hs ++ t :: r)]; (split; [reflexivity|]); exact (Forall_inv P). Qed.
Lemma bind_i64 {B} ty s z (k : Z -> par B) p a b r pv o st : tk a = TNumber -> ttext a = s -> writes ty s z -> plain b ->
  pbind take_i64 k (going p a (b :: r) pv o st) = k (wrap64 z) (going p b r a o st).
Proof.
  intros K <- W P. unfold take_i64, take_number. rewrite bind_bind, bind_bind, bind_cur, bind_bind, bind_con by auto. rewrite bind_ret.
  unfold number_i64. now rewrite (writes_i64 _ _ _ W).
Qed.
Lemma bind_tok {B} (k : token -> par B) p a b r pv o s : tk a = TNumber -> plain b ->
  pbind take_number k (going p a (b :: r) pv o s) = k a (going p b r a o s).
Proof. intros K P. unfold take_number. rewrite bind_bind, bind_cur, bind_bind, bind_con by auto. reflexivity. Qed.
Lemma const_facts w : In w const_words -> let t := of_word (ident w) in
  match_keyword t "big_endian" || match_keyword t "be" = false /\ match_keyword t "little_endian" || match_keyword t "le" = false /\
  match_keyword t "fill" = false /\ match_keyword t "crc_refin" = false /\ match_keyword t "crc_refout" = false /\ match_keyword t "optional" = false /\
  match_keyword t "eof" = false /\ match_keyword t "count" || match_keyword t "len" = false /\ match_keyword t "const" || match_keyword t "match" = true.
Proof. intros [<-|[<-|[]]]; vm_compute; auto 12. Qed.
Lemma range_facts : let t := of_word (ident "range") in
  match_keyword t "big_endian" || match_keyword t "be" = false /\ match_keyword t "little_endian" || match_keyword t "le" = false /\
  match_keyword t "fill" = false /\ match_keyword t "crc_refin" = false /\ match_keyword t "crc_refout" = false /\ match_keyword t "optional" = false /\
  match_keyword t "eof" = false /\ match_keyword t "count" || match_keyword t "len" = false /\ match_keyword t "const" || match_keyword t "match" = false /\
  match_keyword t "pad" = false /\ match_keyword t "range" = true.
Proof. vm_compute; auto 12. Qed.

Definition next_const (x : dec) (c : option Z) : option Z := match x with Const z => Some z | _ => c end.
Definition next_be (x : dec) (b : bool) : bool := match x with Order b' => b' | _ => b end.
Definition next_range (x : dec) (r : option (Z * Z)) : option (Z * Z) := match x with Range lo hi => Some (lo, hi) | _ => r end.
Lemma dec_run E ty x ws : dec_read ty x ws -> forall ts c be rg rz p a y pv o s t r, rg_ok ty rz rg ->
  map word_of ts = ws -> a :: y = ts ++ t :: r -> Forall plain (ts ++ [t]) ->
  exists rg', rg_ok ty (next_range x rz) rg' /\ forall f, decorators E (S f) (dd c be rg) (going p a y pv o s) =
    decorators E f (dd (next_const x c) (next_be x be) rg') (going p t r (last ts pv) o s).
Proof.
  intros R ts c be rg rz p a y pv o s t r RG M X P. destruct R as [b w I|w n z I W|n lo u hi WL WH LH]; repeat one_token; cbn [app] in X, P; injection X as -> ->; split_plain.
  - exists rg. split; [exact RG|]. intros f. cbn [decorators next_const next_be]. rewrite bind_at, is_kind_true by exact (word_kind _ _ _ W). rewrite bind_adv by auto.
    unfold decorator. rewrite bind_bind, bind_cur, bind_bind, bind_con; [|exact (word_kind _ _ _ W0)|auto].
    destruct (order_facts _ _ I) as (F1 & F2). cbv zeta in F1, F2.
    rewrite !(keyword_word t1), W0. change (TIdentifier, chars w) with (ident w). rewrite F1. destruct b.
    + reflexivity.
    + rewrite F2 by reflexivity. reflexivity.
  - exists rg. split; [exact RG|]. intros f. cbn [decorators next_const next_be]. rewrite bind_at, is_kind_true by exact (word_kind _ _ _ W0). rewrite bind_adv by auto.
    unfold decorator. rewrite bind_bind, bind_cur, bind_bind, bind_con; [|exact (word_kind _ _ _ W1)|auto].
    destruct (const_facts _ I) as (F1 & F2 & F3 & F4 & F5 & F6 & F7 & F8 & F9). cbv zeta in *.
    unfold deco_args. rewrite !(keyword_word t1), W1. rewrite F1, F2, F3, F4, F5, F6, F7, F8, F9.
    rewrite bind_bind, bind_con; [|exact (word_kind _ _ _ W2)|auto]. rewrite bind_bind, bind_bind.
    rewrite (bind_i64 ty n z _ _ _ _ _ _ _ _ (word_kind _ _ _ W3) (word_text _ _ _ W3) W) by auto.
    rewrite bind_ret, bind_bind, bind_con; [|exact (word_kind _ _ _ W4)|auto]. rewrite bind_ret. rewrite ofZ_wrap. reflexivity.
  - exists (Some (t3, t5)). split; [cbn [next_range rg_ok]; rewrite (word_text _ _ _ W2), (word_text _ _ _ W4); auto|].
    intros f. cbn [decorators next_const next_be]. rewrite bind_at, is_kind_true by exact (word_kind _ _ _ W). rewrite bind_adv by auto.
    unfold decorator. rewrite bind_bind, bind_cur, bind_bind, bind_con; [|exact (word_kind _ _ _ W0)|auto].
    destruct range_facts as (F1 & F2 & F3 & F4 & F5 & F6 & F7 & F8 & F9 & F10 & F11). cbv zeta in *.
    unfold deco_args. rewrite !(keyword_word t1), W0. rewrite F1, F2, F3, F4, F5, F6, F7, F8, F9, F10, F11.
    rewrite bind_bind, bind_con; [|exact (word_kind _ _ _ W1)|auto]. rewrite bind_bind, bind_bind.
    rewrite bind_tok; [|exact (word_kind _ _ _ W2)|auto]. rewrite bind_bind, bind_con; [|exact (word_kind _ _ _ W3)|auto].
    rewrite bind_bind, bind_tok; [|exact (word_kind _ _ _ W4)|auto]. rewrite bind_ret, bind_bind, bind_con; [|exact (word_kind _ _ _ W5)|auto].
    reflexivity.
Qed.
Lemma dec_len ty x ws : dec_read ty x ws -> (1 <= length ws)%nat.
Proof. destruct 1; cbn; lia. Qed.
Lemma decs_run E ty l ws : decs_read ty l ws -> forall ts c be rg rz p a y pv o s t r, rg_ok ty rz rg ->
  map word_of ts = ws -> a :: y = ts ++ t :: r -> Forall plain (ts ++ [t]) -> tk t <> TAt ->
  exists rg', rg_ok ty (fold_left (fun r x => next_range x r) l rz) rg' /\ forall f, (length ts < f)%nat ->
    decorators E f (dd c be rg) (going p a y pv o s) =
    POk (dd (fold_left (fun r x => next_const x r) l c) (fold_left (fun r x => next_be x r) l be) rg') (going p t r (last ts pv) o s).
Proof.
  induction 1 as [|x l ws wr R D IH]; intros ts c be rg rz p a y pv o s t r RG M X P NT.
  - destruct ts; [|discriminate]. injection X as -> ->. exists rg. split; [exact RG|]. intros f L. destruct f as [|f]; [lia|].
    cbn [decorators]. rewrite bind_at, is_kind_false by auto. reflexivity.
  - apply map_eq_app in M as (t1 & t2 & -> & M1 & M2). rewrite <- app_assoc in X, P.
    destruct (next_of t2 t r ltac:(apply Forall_app in P; apply P)) as (h & hs & EH & PH). rewrite EH in X.
    destruct (dec_run E ty x ws R t1 c be rg rz p a y pv o s h hs RG M1 X) as (rg1 & RG1 & K1).
    { apply Forall_app in P as (P1 & _). apply Forall_app. auto. }
    destruct (IH t2 (next_const x c) (next_be x be) rg1 _ p h hs (last t1 pv) o s t r RG1 M2 (eq_sym EH) ltac:(apply Forall_app in P; apply P) NT) as (rg2 & RG2 & K2).
    exists rg2. split; [exact RG2|]. intros f L. rewrite app_length in L. pose proof (dec_len _ _ _ R) as LD. rewrite <- M1, map_length in LD.
    destruct f as [|f]; [lia|]. rewrite K1, K2 by lia. cbn [fold_left]. now rewrite last_two.
Qed.
Lemma decs_values f : i_const f = fold_left (fun r x => next_const x r) (i_decs f) None /\
  i_big f = fold_left (fun r x => next_be x r) (i_decs f) false /\ i_range f = fold_left (fun r x => next_range x r) (i_decs f) None.
Proof.
  unfold i_const, i_big, i_range, last_of. split; [|split].
  - assert (G : forall l z, fold_left (fun r d => match (match d with Const c => Some c | _ => None end) with Some x => Some x | None => r end) l z
      = fold_left (fun r x => next_const x r) l z).
    { induction l as [|x l IH]; intros z; [reflexivity|]. cbn [fold_left]. rewrite IH. destruct x; reflexivity. }
    apply G.
  - assert (G : forall l o, match fold_left (fun r d => match (match d with Order b => Some b | _ => None end) with Some x => Some x | None => r end) l o with Some b => b | None => false end
      = fold_left (fun r x => next_be x r) l (match o with Some b => b | None => false end)).
    { induction l as [|x l IH]; intros o0; [reflexivity|]. cbn [fold_left]. rewrite IH. destruct x, o0; reflexivity. }
    apply (G _ None).
  - assert (G : forall l z, fold_left (fun r d => match (match d with Range lo hi => Some (lo, hi) | _ => None end) with Some x => Some x | None => r end) l z
      = fold_left (fun r x => next_range x r) l z).
    { induction l as [|x l IH]; intros z; [reflexivity|]. cbn [fold_left]. rewrite IH. destruct x; reflexivity. }
    apply G.
Qed.

(** ** A field *)
Definition item_sym (f : item) : list sym :=
  let ty := i_type f in
  (if i_big f then [(0x02, [], [])] else []) ++
  match i_const f with
  | Some c => [(0x40, [i_name f], ty :: int_bytes ty c)]
  | None => (ty, [i_name f], []) ::
    match i_members f with None => [] | Some l => [(0x4B, [], ty :: bytes_of LE 2 (lenN l) ++ flat_map (int_bytes ty) l)] end
  end ++
  match i_range f with Some (lo, hi) => [(0x42, [], ty :: int_bytes ty lo ++ int_bytes ty hi)] | None => [] end ++
  (if i_big f then [(0x01, [], [])] else []).
Definition syms_code (id : list N -> N) (l : list sym) : list N := code (map (inst id) l).
Lemma syms_app id a b : syms_code id (a ++ b) = syms_code id a ++ syms_code id b.
Proof. unfold syms_code, code. rewrite map_app. apply flat_map_app. Qed.

Lemma range_emit E ty lo hi tl th p a x pv o s : writes ty (ttext tl) lo -> writes ty (ttext th) hi -> (lo <= hi)%Z ->
  emit_range_check E ty tl th (going p a x pv o s) = POk tt (going p a x pv (o ++ 0x42 :: ty :: int_bytes ty lo ++ int_bytes ty hi) s).
Proof.
  intros WL WH L. pose proof (writes_i64 _ _ _ WL) as IL. pose proof (writes_i64 _ _ _ WH) as IH.
  pose proof (writes_type _ _ _ WL) as TL. pose proof (writes_type _ _ _ WH) as TH.
  assert (TB : type_bytes ty <> None) by (intros E0; unfold in_type in TL; rewrite E0 in TL; exact TL).
  assert (IB : forall z, int_bytes ty z = le_of ty (ofZ 8 (wrap64 z))).
  { intros z. symmetry. apply le_of_bytes; auto. rewrite <- (ofZ_wrap z). unfold ofZ. change (2 ^ Z.of_N (8 * 8))%Z with 18446744073709551616%Z. lia. }
  assert (WR : forall z, (- 2 ^ 63 <= z < 2 ^ 63)%Z -> wrap64 z = z).
  { intros z B. unfold wrap64. change (2 ^ 64)%Z with 18446744073709551616%Z. change (2 ^ 63)%Z with 9223372036854775808%Z in *. lia. }
  destruct (type_bytes ty) as [n|] eqn:EB; [|congruence]. unfold in_type in TL, TH. rewrite EB in TL, TH. apply int_types in EB. clear TB.
  assert (SG : (type_signed ty = true /\ wrap64 lo = lo /\ wrap64 hi = hi) \/ type_signed ty = false).
  { destruct (type_signed ty); [left; split; [reflexivity|]|auto]. split; apply WR; cbn [In] in EB; decompose [or] EB; try contradiction;
      match goal with H : _ = _ |- _ => injection H as <- <- end; cbn in TL, TH |- *; lia. }
  unfold emit_range_check. cbn [In] in EB. decompose [or] EB; try contradiction; match goal with H : _ = _ |- _ => injection H as <- <- end; cbv zeta; cbv iota beta.
  1-3: pose proof (writes_u32 _ _ _ WL ltac:(lia)) as UL; pose proof (writes_u32 _ _ _ WH ltac:(lia)) as UH; rewrite !bind_ret;
    destruct (N.ltb_spec (parse_number_u32 (ttext th)) (parse_number_u32 (ttext tl))) as [BAD|_]; [exfalso; lia|];
    rewrite emit_going; do 3 f_equal; cbn [app]; do 2 f_equal; f_equal; apply le_of_bytes; rewrite ?UL, ?UH; (discriminate || reflexivity).
  - unfold number_i64. rewrite IL, IH. cbn [of_result]. rewrite !bind_ret. rewrite !ofZ_wrap.
    destruct (N.ltb_spec (ofZ 8 hi) (ofZ 8 lo)) as [BAD|_].
    { exfalso. cbn in TL, TH. unfold ofZ in BAD. change (2 ^ Z.of_N (8 * 8))%Z with 18446744073709551616%Z in BAD. rewrite !Z.mod_small in BAD; lia. }
    rewrite emit_going, !IB, !ofZ_wrap. reflexivity.
  - destruct SG as [(_ & E1 & E2)|SG]; [|discriminate SG]. unfold number_i64. rewrite IL, IH. cbn [of_result]. rewrite !bind_ret. rewrite E1, E2.
    destruct (Z.ltb_spec hi lo); [lia|]. rewrite emit_going, !IB, !ofZ_wrap. reflexivity.
  - destruct SG as [(_ & E1 & E2)|SG]; [|discriminate SG]. unfold number_i64. rewrite IL, IH. cbn [of_result]. rewrite !bind_ret. rewrite E1, E2.
    destruct (Z.ltb_spec hi lo); [lia|]. rewrite emit_going, !IB, !ofZ_wrap. reflexivity.
  - destruct SG as [(_ & E1 & E2)|SG]; [|discriminate SG]. unfold number_i64. rewrite IL, IH. cbn [of_result]. rewrite !bind_ret. rewrite E1, E2.
    destruct (Z.ltb_spec hi lo); [lia|]. rewrite emit_going, !IB, !ofZ_wrap. reflexivity.
  - destruct SG as [(_ & E1 & E2)|SG]; [|discriminate SG]. unfold number_i64. rewrite IL, IH. cbn [of_result]. rewrite !bind_ret. rewrite E1, E2.
    destruct (Z.ltb_spec hi lo); [lia|]. rewrite emit_going, !IB, !ofZ_wrap. reflexivity.
Qed.

Definition dec_ok (ty : N) (x : dec) : Prop :=
  match x with Const z => in_type ty z | Range lo hi => in_type ty lo /\ in_type ty hi | _ => True end.
Lemma decs_ok ty l ws : decs_read ty l ws -> Forall (dec_ok ty) l.
Proof. induction 1 as [|x l ws wr R D IH]; constructor; auto. destruct R; cbn; eauto using writes_type. Qed.
Lemma const_in f c : i_const f = Some c -> In (Const c) (i_decs f).
Proof.
  rewrite (proj1 (decs_values f)). assert (G : forall l z, fold_left (fun r x => next_const x r) l z = Some c -> In (Const c) l \/ z = Some c).
  { induction l as [|x l IH]; intros z E; [auto|]. cbn [fold_left] in E. apply IH in E as [E|E]; [left; right; auto|].
    destruct x; cbn in E; auto. left. left. congruence. }
  intros E. apply G in E as [E|E]; [auto|discriminate].
Qed.
Lemma range_in f lo hi : i_range f = Some (lo, hi) -> In (Range lo hi) (i_decs f).
Proof.
  rewrite (proj2 (proj2 (decs_values f))). assert (G : forall l z, fold_left (fun r x => next_range x r) l z = Some (lo, hi) -> In (Range lo hi) l \/ z = Some (lo, hi)).
  { induction l as [|x l IH]; intros z E; [auto|]. cbn [fold_left] in E. apply IH in E as [E|E]; [left; right; auto|].
    destruct x; cbn in E; auto. left. left. congruence. }
  intros E. apply G in E as [E|E]; [auto|discriminate].
Qed.

Definition edef (e : enum) : enumdef := {| en_name := m_name e; en_type := m_type e; en_vals := m_members e |}.
(** The enumerations known *)
Definition enums_ok (es : list enum) : Prop :=
  NoDup (map m_name es) /\ Forall (fun e => type_bytes (m_type e) <> None) es /\
  Forall (fun e => ~ In (m_name e) (map (fun w => chars (snd w)) type_words)) es /\
  Forall (fun e => NoDup (map fst (m_members e))) es.
Lemma find_member es e : NoDup (map m_name es) -> In e es -> find_enum (map edef es) (m_name e) = Some (edef e).
Proof.
  unfold find_enum. induction es as [|x es IH]; intros ND I; [destruct I|]. cbn [map find]. change (en_name (edef x)) with (m_name x). inversion ND as [|? ? NI ND']; subst.
  destruct I as [->|I].
  - now rewrite (proj2 (same_text_spec _ _) eq_refl).
  - destruct (same_text (m_name x) (m_name e)) eqn:S0; [|now apply IH]. apply same_text_spec in S0. exfalso. apply NI. rewrite S0. now apply in_map.
Qed.
Lemma find_none es n : ~ In n (map m_name es) -> find_enum (map edef es) n = None.
Proof.
  unfold find_enum. induction es as [|x es IH]; intros NI; [reflexivity|]. cbn [map find]. change (en_name (edef x)) with (m_name x).
  destruct (same_text (m_name x) n) eqn:S0; [apply same_text_spec in S0; exfalso; apply NI; left; auto|]. apply IH. intros I. apply NI. right. auto.
Qed.
Lemma int_fact ty s : In (ty, s) type_words -> type_bytes ty <> None -> int_name (of_word (ident s)) = Some ty.
Proof.
  intros I T. assert (F : forallb (fun x => match type_bytes (fst x) with Some _ => opt_is (int_name (of_word (ident (snd x)))) (fst x) | None => true end) type_words = true) by (vm_compute; reflexivity).
  pose proof (in_forallb _ _ F _ I) as G. cbn [fst snd] in G. destruct (type_bytes ty); [|congruence]. unfold opt_is in G.
  destruct (int_name _) as [m|]; [|discriminate]. apply N.eqb_eq in G. now subst.
Qed.
Lemma fits_const ty z : in_type ty z -> const_fits ty (ofZ 8 z) = true.
Proof.
  unfold in_type. destruct (type_bytes ty) as [n|] eqn:EB; [|contradiction]. apply int_types in EB.
  assert (TS : (- 2 ^ 63 <= z < 2 ^ 63)%Z -> toS 8 (ofZ 8 z) = z).
  { intros B. unfold toS, ofZ. change (2 ^ Z.of_N (8 * 8))%Z with 18446744073709551616%Z. change (2 ^ (8 * 8 - 1)) with 9223372036854775808.
    change (2 ^ 63)%Z with 9223372036854775808%Z in B. destruct (N.ltb_spec (Z.to_N (z mod 18446744073709551616)) 9223372036854775808); lia. }
  cbn [In] in EB. decompose [or] EB; try contradiction; match goal with H : _ = _ |- _ => injection H as <- <- end; intros B; cbn in B; cbn [const_fits]; auto;
    try (rewrite TS by lia; lia); unfold ofZ; change (2 ^ Z.of_N (8 * 8))%Z with 18446744073709551616%Z; lia.
Qed.

Lemma item_rest E es f w rg : type_read es (i_type f) (i_members f) w -> (i_members f <> None -> i_const f = None) -> Forall (dec_ok (i_type f)) (i_decs f) ->
  rg_ok (i_type f) (i_range f) rg -> enums_ok es ->
  forall t1 t2 t3 t p r pv o s T, word_of t1 = w -> word_of t2 = (TIdentifier, i_name f) -> tk t3 = TSemicolon -> plain t ->
  p_bitmode p = false -> p_structs p = [] -> p_enums p = map edef es -> ~ In (i_name f) (p_fields p) -> Forall text (p_fields p) ->
  Forall text s -> lenN (table1 s (i_name f)) <= 65536 -> (exists y, T = table1 s (i_name f) ++ y) ->
  field_rest E (dd (i_const f) (i_big f) rg) (going p t1 (t2 :: t3 :: t :: r) pv o s) =
  POk tt (going (set_struct (p_sname p) (p_fields p ++ [i_name f]) p) t r t3 (o ++ syms_code (index_of T) (item_sym f)) (table1 s (i_name f))).
Proof.
  intros TR MC DO RG (ND & ET & EN & _) t1 t2 t3 t p r pv o s T W1 W2 K3 PT BM PS PE NI FT ST SL (y & TX).
  assert (K1 : tk t1 = TIdentifier) by (destruct TR; exact (word_kind _ _ _ W1)).
  assert (P2 : plain t2) by (split; rewrite (word_kind _ _ _ W2); discriminate). assert (P3 : plain t3) by (split; rewrite K3; discriminate).
  unfold field_rest. rewrite !bind_at. rewrite (is_kind_false TSemicolon) by (rewrite K1; discriminate).
  cbn [d_alone dd orb andb]. change (trans_code (dd (i_const f) (i_big f) rg)) with (@nil N). rewrite bind_emit, app_nil_r.
  rewrite bind_cur, bind_con by auto. rewrite bind_cur.
  rewrite (is_kind_false TSelf) by (rewrite (word_kind _ _ _ W2); discriminate).
  rewrite bind_con; [|exact (word_kind _ _ _ W2)|auto].
  rewrite (word_text _ _ _ W2), fields_add by auto. rewrite bind_name by auto. rewrite bind_at, (is_kind_false TColon) by (rewrite K3; discriminate). rewrite bind_ret.
  set (p1 := set_struct _ _ p). set (s1 := table1 s (i_name f)) in *.
  assert (IX : index_of s1 (i_name f) = index_of T (i_name f)).
  { rewrite TX. symmetry. apply index_in. exact (proj2 (add_index s (i_name f) ST SL)). }
  rewrite IX. set (k := index_of T (i_name f)).
  set (d := dd (i_const f) (i_big f) rg).
  set (sh := {| s_array := None; s_arr_op := 0; s_str_op := 0; s_max := 255; s_until := false |}).
  assert (SH : forall B (kk : deco * shape -> par B), pbind (field_shape t1 d) kk (going p1 t3 (t :: r) t2 o s1) = kk (d, sh) (going p1 t3 (t :: r) t2 o s1)).
  { intros B kk. unfold field_shape. rewrite bind_bind, bind_at, is_kind_false by (rewrite K3; discriminate). rewrite bind_bind, bind_ret. cbv zeta. cbn [fst snd].
    assert (MT : forall kw, match_keyword t3 kw = false) by (intros kw; unfold match_keyword; rewrite is_kind_false by (rewrite K3; discriminate); reflexivity).
    rewrite bind_bind, bind_cur, MT. destruct (match_keyword t1 "string"); [|reflexivity].
    rewrite bind_bind, MT, bind_ret, bind_bind, bind_cur, MT. reflexivity. }
  rewrite SH. cbv zeta. cbn [fst snd s_array sh some andb]. rewrite bind_when.
  assert (EM : forall B (kk : unit -> par B) b c q, pbind (when b (emit c)) kk (going p1 t3 (t :: r) t2 q s1) = kk tt (going p1 t3 (t :: r) t2 (q ++ (if b then c else [])) s1)).
  { intros B kk [] c0 q; [reflexivity|]. cbn [when]. rewrite app_nil_r. reflexivity. }
  change (d_be d) with (i_big f). rewrite EM. change (open_code d sh k) with (@nil N). rewrite bind_emit, app_nil_r.
  change (d_const d) with (option_map (ofZ 8) (i_const f)).
  assert (RE : forall q, match d_range d with Some (lo, hi) => emit_range_check E (i_type f) lo hi | None => ret tt end (going p1 t3 (t :: r) t2 q s1) =
    POk tt (going p1 t3 (t :: r) t2 (q ++ match i_range f with Some (lo, hi) => 0x42 :: i_type f :: int_bytes (i_type f) lo ++ int_bytes (i_type f) hi | None => [] end) s1)).
  { intros q. change (d_range d) with rg. unfold rg_ok in RG. destruct (i_range f) as [[lo hi]|], rg as [[tl th]|]; try contradiction.
    - destruct RG as (A & B & C). now apply range_emit.
    - rewrite app_nil_r. reflexivity. }
  set (o1 := o ++ (if i_big f then [2] else [])).
  set (body := match i_const f with
    | Some c => [0x40] ++ le2 k ++ i_type f :: int_bytes (i_type f) c
    | None => ([i_type f] ++ le2 k) ++ match i_members f with None => [] | Some l => 0x4B :: i_type f :: bytes_of LE 2 (lenN l) ++ flat_map (int_bytes (i_type f)) l end end).
  set (rgc := match i_range f with Some (lo, hi) => 0x42 :: i_type f :: int_bytes (i_type f) lo ++ int_bytes (i_type f) hi | None => [] end) in *.
  assert (CODE : syms_code (index_of T) (item_sym f) = (if i_big f then [2] else []) ++ body ++ rgc ++ (if i_big f then [1] else [])).
  { unfold item_sym. cbv zeta. rewrite !syms_app. f_equal; [destruct (i_big f); reflexivity|]. f_equal; [|f_equal].
    - unfold body. destruct (i_const f) as [c|]; [unfold syms_code; cbn [map code flat_map inst ins instr_bytes opcode refs args fst snd app]; fold k; rewrite !app_nil_r; rewrite le2_bytes; reflexivity|].
      destruct (i_members f) as [l|]; unfold syms_code; cbn [map code flat_map inst ins instr_bytes opcode refs args fst snd app]; fold k; rewrite !app_nil_r; rewrite le2_bytes; reflexivity.
    - unfold rgc. destruct (i_range f) as [[lo hi]|]; [|reflexivity]. unfold syms_code; cbn [map code flat_map inst ins instr_bytes opcode refs args fst snd app]. now rewrite !app_nil_r.
    - destruct (i_big f); reflexivity. }
  assert (BODY : forall B (kk : bool -> par B), pbind
      (match option_map (ofZ 8) (i_const f) with
       | Some v => const_field E t1 d k v ;; ret true
       | None =>
         let% sd := get (fun p0 => find_struct (p_structs p0) (ttext t1)) in
         let% ed := get (fun p0 => find_enum (p_enums p0) (ttext t1)) in
         match sd, ed with
         | Some code, _ => struct_field t1 t2 d 0 k code
         | None, Some e => enum_field E d 0 k e ;; ret true
         | None, None => if match_keyword t1 "string" then string_field d 0 k sh ;; ret true else basic_field E t1 d 0 k
         end
       end) kk (going p1 t3 (t :: r) t2 o1 s1) = kk true (going p1 t3 (t :: r) t2 (o1 ++ body ++ rgc) s1)).
  { intros B kk. destruct (i_const f) as [c|] eqn:EC; cbn [option_map].
    - assert (IT : in_type (i_type f) c) by (exact (proj1 (Forall_forall _ _) DO _ (const_in _ _ EC))).
      assert (TB : type_bytes (i_type f) <> None) by (intros E0; unfold in_type in IT; rewrite E0 in IT; exact IT).
      destruct TR as [ty s0 I|e I]; [|discriminate MC; discriminate].
      unfold const_field. rewrite bind_bind, bind_bind. rewrite int_word, W1, (int_fact _ _ I TB). rewrite bind_ret. rewrite (fits_const _ _ IT). cbn [negb andb]. rewrite bind_bind, bind_when.
      rewrite bind_bind, bind_emit. rewrite (bind_ok _ _ _ tt _ (RE _)). rewrite bind_ret. unfold body. rewrite <- !app_assoc. do 3 f_equal. cbn [app]. do 3 f_equal. f_equal.
      rewrite (le_of_bytes ty c); [reflexivity|exact TB|]. unfold ofZ. change (2 ^ Z.of_N (8 * 8))%Z with 18446744073709551616%Z. lia.
    - rewrite bind_bind, bind_get, bind_bind, bind_get.
      change (p_structs (going p1 t3 (t :: r) t2 o1 s1)) with (p_structs p). change (p_enums (going p1 t3 (t :: r) t2 o1 s1)) with (p_enums p).
      rewrite PS, PE. cbn [find_struct find option_map].
      destruct TR as [ty s0 I|e I].
      + destruct (type_facts _ _ I) as (TN & NS & _).
        rewrite (word_text _ _ _ W1). rewrite find_none.
        2:{ intros J. apply in_map_iff in J as (e & EE & J). apply (proj1 (Forall_forall _ _) EN e J). rewrite EE. apply in_map_iff. exists (ty, s0). auto. }
        rewrite keyword_word, W1, NS. unfold basic_field. rewrite bind_bind, bind_get.
        change (p_bitmode (going p1 t3 (t :: r) t2 o1 s1)) with (p_bitmode p). rewrite BM. cbv zeta. cbn [andb].
        change (0 <? 0) with false. cbv iota. rewrite type_word, W1, TN. change (d_crc d) with (@None N). change (d_expr d) with false. cbv iota.
        rewrite bind_bind, bind_bind, bind_emit. rewrite (bind_ok _ _ _ tt _ (RE _)). rewrite bind_ret. unfold body. rewrite app_nil_r, <- !app_assoc. reflexivity.
      + rewrite (word_text _ _ _ W1), (find_member es e ND I). pose proof (proj1 (Forall_forall _ _) ET e I) as TB. cbn beta in TB.
        unfold enum_field. change (has_trans d) with false. change (d_crc d) with (@None N). cbn [some]. change (0 <? 0) with false.
        rewrite bind_bind, bind_bind, bind_when, bind_bind, bind_when, bind_bind, bind_when. rewrite bind_bind, bind_emit.
        cbn [edef en_type en_vals]. rewrite (bind_ok _ _ _ tt _ (RE _)). rewrite bind_ret. unfold body. rewrite <- !app_assoc. do 3 f_equal. cbn [app]. rewrite <- !app_assoc. do 5 f_equal.
        rewrite le2_bytes. unfold lenN. rewrite map_length. do 2 f_equal. rewrite flat_map_concat_map, flat_map_concat_map, map_map. do 2 f_equal. apply map_ext. intros v.
        apply le_of_bytes; [exact TB|]. unfold ofZ. change (2 ^ Z.of_N (8 * 8))%Z with 18446744073709551616%Z. lia. }
  rewrite BODY. cbn [when]. rewrite bind_ret. rewrite bind_con by auto. rewrite CODE. unfold o1.
  destruct (i_big f); cbn [when]; [|unfold ret; rewrite ?app_nil_r; cbn [app]; rewrite ?app_nil_r; reflexivity].
  rewrite emit_going, <- !app_assoc. reflexivity.
Qed.

Lemma dec_at ty l ws : decs_read ty l ws -> match ws with [] => True | w :: _ => fst w = TAt end.
Proof. destruct 1 as [|x l ws wr R D]; [exact I|]. destruct R; reflexivity. Qed.
Lemma item_head es f ws : item_read es f ws -> exists w r, ws = w :: r /\ (fst w = TAt \/ fst w = TIdentifier).
Proof.
  intros (ds & w & DR & TR & _ & ->). pose proof (dec_at _ _ _ DR) as K. destruct ds as [|q ds]; cbn [app]; [|eauto 6].
  exists w. eexists. split; [reflexivity|]. right. destruct TR; reflexivity.
Qed.
Lemma item_run E es f ws : item_read es f ws -> enums_ok es -> forall ts p y x pv o s t r T,
  map word_of ts = ws -> y :: x = ts ++ t :: r -> Forall plain (ts ++ [t]) ->
  p_err p = false -> p_bitmode p = false -> p_structs p = [] -> p_enums p = map edef es -> ~ In (i_name f) (p_fields p) -> Forall text (p_fields p) ->
  Forall text s -> lenN (table1 s (i_name f)) <= 65536 -> (exists y, T = table1 s (i_name f) ++ y) ->
  forall fuel, (length ts < fuel)%nat ->
  parse_field E (S fuel) (going p y x pv o s) =
  POk tt (going (set_struct (p_sname p) (p_fields p ++ [i_name f]) p) t r (last ts pv) (o ++ syms_code (index_of T) (item_sym f)) (table1 s (i_name f))).
Proof.
  intros IR EO ts p y x pv o s t r T M X P ER BM PS PE NI FT ST SL TX fuel L.
  destruct (item_head _ _ _ IR) as (w0 & wt & EW & KW). destruct IR as (ds & w & DR & TR & MC & ->).
  apply map_eq_app in M as (td & t2 & -> & M1 & M2). repeat one_token. rename t0 into h, t1 into nt, t3 into sm.
  assert (KH : tk h = TIdentifier) by (destruct TR; exact (word_kind _ _ _ W)).
  assert (KY : tk y = TAt \/ tk y = TIdentifier).
  { destruct td as [|z td]; [injection X as -> _; auto|]. injection X as -> _. left. pose proof (dec_at _ _ _ DR) as K. rewrite <- M1 in K. exact K. }
  cbn [parse_field]. rewrite bind_get. change (p_err (going p y x pv o s)) with (p_err p). rewrite ER.
  destruct fuel as [|fuel]; [lia|]. rewrite bind_skip by (destruct KY as [K|K]; rewrite K; discriminate).
  rewrite bind_get. change (p_cur (going p y x pv o s)) with y.
  assert (EQ : forall (m1 m2 m3 : par unit), match tk y with TSwitch => m1 | TIf => m2 | _ => m3 end = m3) by (intros; destruct KY as [K|K]; now rewrite K).
  rewrite EQ. clear EQ. rewrite <- app_assoc in X, P. cbn [app] in X, P.
  destruct (decs_run E (i_type f) (i_decs f) ds DR td None false None None p y x pv o s h (nt :: sm :: t :: r) I M1 X) as (rg & RG & K).
  { apply Forall_app in P as (A & B). apply Forall_app. split; auto. constructor; auto. exact (Forall_inv B). }
  { rewrite KH. discriminate. }
  destruct (decs_values f) as (V1 & V2 & V3).
  rewrite (bind_ok (decorators E (S fuel) deco0) _ _ (dd (i_const f) (i_big f) rg) (going p h (nt :: sm :: t :: r) (last td pv) o s)).
  - rewrite last_two. cbn [last]. apply (item_rest E es f w rg); auto; try (now rewrite V3); try exact (word_kind _ _ _ W1); try (now apply decs_ok in DR).
    apply Forall_app in P as (_ & P). now split_plain.
  - rewrite V1, V2. apply K. rewrite app_length in L. lia.
Qed.

(** ** Conditions *)
Fixpoint cond_sym (e : expr) : list sym :=
  match e with
  | XInt v => [(0x61, [], bytes_of LE 8 (ofZ 8 v))]
  | XField n => [(0x60, [n], [])]
  | XBin o a b => cond_sym a ++ cond_sym b ++ [(ibin_op o, [], [])]
  | XUn o a => cond_sym a ++ [(match o with INeg => 0x77 | INot => 0xA3 | ILNot => 0x71 end, [], [])]
  | _ => []
  end.
Lemma integral_type e : integral e -> is_float (SpecParse.type_of e) = false.
Proof.
  induction e; cbn [integral SpecParse.type_of]; intros U; try contradiction; try reflexivity.
  - destruct U as (A & B). rewrite IHe1, IHe2 by auto. destruct o; reflexivity.
  - rewrite IHe by auto. destruct o; reflexivity.
Qed.
Lemma cond_code dbl id e : integral e -> SpecParse.code dbl id e = syms_code id (cond_sym e).
Proof.
  induction e; cbn [integral SpecParse.code cond_sym]; intros U; try contradiction.
  - reflexivity.
  - reflexivity.
  - destruct U as (A & B). rewrite !syms_app, IHe1, IHe2 by auto. unfold balance. rewrite (integral_type e1), (integral_type e2) by auto. reflexivity.
  - rewrite syms_app, IHe by auto. rewrite (integral_type e) by auto. destruct o; reflexivity.
Qed.
Lemma cond_run E c cw : condition_read c cw -> forall l p a x pv o s t r T, map word_of l = cw -> a :: x = l ++ t :: r -> Forall plain (l ++ [t]) ->
  tk t = TRparen -> Forall text s -> lenN (table s (names c)) <= 65536 -> (exists y, T = table s (names c) ++ y) ->
  exists n, forall f, (n <= f)%nat -> parse_expression E f (going p a x pv o s) =
    POk (SpecParse.type_of c) (going p t r (last l pv) (o ++ syms_code (index_of T) (cond_sym c)) (table s (names c))).
Proof.
  intros (RD & US & _) l p a x pv o s t r T M X P KT ST SL (y & TX).
  destruct (expression_spec E cw c RD (going p a x pv o s) l t r M) with (tab := table s (names c)) as (n & K); auto.
  - split; [exact X|]. exact P.
  - symmetry. apply table_intern.
  - exists n. intros f L. rewrite (K f L). f_equal.
    assert (NT : Forall text (names c)) by (eapply names_text; exact RD).
    rewrite (code_ext _ (index_of (table s (names c))) (index_of T)).
    2:{ intros m I. rewrite TX. symmetry. apply index_in. apply table_in; auto. }
    rewrite cond_code by auto. reflexivity.
Qed.

(** ** A computed field *)
Lemma expr_facts : let t := of_word (ident "expr") in
  match_keyword t "big_endian" || match_keyword t "be" = false /\ match_keyword t "little_endian" || match_keyword t "le" = false /\
  match_keyword t "fill" = false /\ match_keyword t "crc_refin" = false /\ match_keyword t "crc_refout" = false /\ match_keyword t "optional" = false /\
  match_keyword t "eof" = false /\ match_keyword t "count" || match_keyword t "len" = false /\ match_keyword t "const" || match_keyword t "match" = false /\
  match_keyword t "pad" = false /\ match_keyword t "range" = false.
Proof. vm_compute; auto 12. Qed.
Lemma expr_facts2 : let t := of_word (ident "expr") in
  match_keyword t "crc" = false /\ match_keyword t "crc_poly" = false /\ match_keyword t "crc_init" = false /\ match_keyword t "crc_xor" = false /\
  match_keyword t "scale" = false /\ match_keyword t "offset" = false /\ match_keyword t "mul" = false /\ match_keyword t "div" = false /\
  match_keyword t "add" = false /\ match_keyword t "sub" = false /\ match_keyword t "poly" = false /\ match_keyword t "spline" = false /\ match_keyword t "expr" = true.
Proof. vm_compute; auto 15. Qed.
Definition bes (l : list bool) (d : deco) : deco := fold_left (fun d b => with_be b d) l d.
Lemma order_steps E l ws : orders_read order_words l ws -> forall ts d p a y pv o s t r,
  map word_of ts = ws -> a :: y = ts ++ t :: r -> Forall plain (ts ++ [t]) ->
  forall f, decorators E (length l + f) d (going p a y pv o s) = decorators E f (bes l d) (going p t r (last ts pv) o s).
Proof.
  induction 1 as [|b w l wr I R IH]; intros ts d p a y pv o s t r M X P f.
  - destruct ts; [|discriminate]. injection X as -> ->. reflexivity.
  - repeat one_token. cbn [app] in X, P. injection X as -> ->. pose proof (Forall_inv_tail P) as P1. pose proof (Forall_inv_tail P1) as P2.
    destruct (next_of ts t r P2) as (h & hs & EH & PH).
    cbn [length Nat.add decorators]. rewrite bind_at, is_kind_true by exact (word_kind _ _ _ W). rewrite bind_adv by exact (Forall_inv P1).
    rewrite EH. unfold decorator at 1. rewrite bind_bind, bind_cur, bind_bind, bind_con; [|exact (word_kind _ _ _ W0)|auto].
    destruct (order_facts _ _ I) as (F1 & F2). cbv zeta in F1, F2.
    rewrite !(keyword_word t1), W0. change (TIdentifier, chars w) with (ident w). rewrite F1. rewrite !last_cons.
    destruct b.
    + rewrite bind_ret. now apply IH.
    + rewrite F2 by reflexivity. rewrite bind_ret. now apply IH.
Qed.
Lemma expr_step E c cw : condition_read c cw -> forall ts d p a y pv o s t r T,
  map word_of ts = [sign TAt "@"; ident "expr"; sign TLparen "("] ++ cw ++ [sign TRparen ")"] -> a :: y = ts ++ t :: r -> Forall plain (ts ++ [t]) ->
  Forall text s -> lenN (table s (names c)) <= 65536 -> (exists y, T = table s (names c) ++ y) ->
  exists n, forall f, (n <= f)%nat -> decorators E (S f) d (going p a y pv o s) =
    decorators E f (with_expr d) (going p t r (last ts pv) (o ++ syms_code (index_of T) (cond_sym c)) (table s (names c))).
Proof.
  intros CR ts d p a y pv o s t r T M X P TS LT TX. cbn [app] in M. do 3 one_token. apply map_eq_app in M as (te & tq & -> & M1 & M2). repeat one_token. rename t3 into rp.
  cbn [app] in X, P. injection X as -> ->. pose proof (Forall_inv_tail P) as P1. pose proof (Forall_inv_tail P1) as P2. pose proof (Forall_inv_tail P2) as P3.
  rewrite <- app_assoc in P3 |- *. cbn [app] in P3 |- *.
  assert (P4 : Forall plain (te ++ [rp])) by (change [rp; t] with ([rp] ++ [t]) in P3; rewrite app_assoc in P3; apply Forall_app in P3; apply P3).
  assert (PT : plain t) by (apply Forall_app in P3 as (_ & A); exact (Forall_inv (Forall_inv_tail A))).
  destruct (next_of te rp (t :: r) P4) as (h & hs & EH & PH).
  destruct (cond_run E c cw CR te p h hs t2 o s rp (t :: r) T M1 (eq_sym EH) P4 (word_kind _ _ _ W2) TS LT TX) as (n & K).
  exists n. intros f L. cbn [decorators]. rewrite bind_at, is_kind_true by exact (word_kind _ _ _ W). rewrite bind_adv by exact (Forall_inv P1).
  unfold decorator. rewrite bind_bind, bind_cur, bind_bind, bind_con; [|exact (word_kind _ _ _ W0)|exact (Forall_inv P2)].
  destruct expr_facts as (F1 & F2 & F3 & F4 & F5 & F6 & F7 & F8 & F9 & F10 & F11).
  destruct expr_facts2 as (G1 & G2 & G3 & G4 & G5 & G6 & G7 & G8 & G9 & G10 & G11 & G12 & G13). cbv zeta in *.
  unfold deco_args. rewrite !(keyword_word t1), W0.
  rewrite F1, F2, F3, F4, F5, F6, F7, F8, F9, F10, F11, G1, G2, G3, G4, G5, G6, G7, G8, G9, G10, G11, G12, G13.
  rewrite EH. rewrite bind_bind, bind_con; [|exact (word_kind _ _ _ W1)|auto]. rewrite bind_bind, bind_bind.
  rewrite (bind_ok _ _ _ _ _ (K f L)). rewrite bind_ret, bind_bind, bind_con; [|exact (word_kind _ _ _ W2)|auto]. rewrite bind_ret.
  rewrite !last_cons, last_two. reflexivity.
Qed.
Definition computed_sym (c : computed) : list sym :=
  cond_sym (c_expr c) ++ (if c_big c then [(0x02, [], [])] else []) ++ [(0x64, [], []); (0x78, [c_name c], []); (0x65, [], [c_type c])] ++
  (if c_big c then [(0x01, [], [])] else []).
Definition leaf_sym (f : leaf) : list sym := match f with Plain f => item_sym f | Computed c => computed_sym c end.
Lemma bes_dd l : forall b, bes l (dd None b None) = dd None (last l b) None.
Proof. induction l as [|x l IH]; intros b; [reflexivity|]. cbn [bes fold_left]. rewrite last_cons. apply IH. Qed.
Lemma bes_expr l : forall b, bes l (with_expr (dd None b None)) = with_expr (dd None (last l b) None).
Proof. induction l as [|x l IH]; intros b; [reflexivity|]. unfold bes. cbn [fold_left]. rewrite last_cons. exact (IH x). Qed.
Lemma computed_rest E es ty w n big : In (ty, w) type_words -> enums_ok es ->
  forall t1 t2 t3 t p r pv o s T, word_of t1 = ident w -> word_of t2 = (TIdentifier, n) -> tk t3 = TSemicolon -> plain t ->
  p_bitmode p = false -> p_structs p = [] -> p_enums p = map edef es -> ~ In n (p_fields p) -> Forall text (p_fields p) ->
  Forall text s -> lenN (table1 s n) <= 65536 -> (exists y, T = table1 s n ++ y) ->
  field_rest E (with_expr (dd None big None)) (going p t1 (t2 :: t3 :: t :: r) pv o s) =
  POk tt (going (set_struct (p_sname p) (p_fields p ++ [n]) p) t r t3
    (o ++ (if big then [2] else []) ++ ([0x64; 0x78] ++ le2 (index_of T n) ++ [0x65; ty]) ++ (if big then [1] else [])) (table1 s n)).
Proof.
  intros I (ND & ET & EN & _) t1 t2 t3 t p r pv o s T W1 W2 K3 PT BM PS PE NI FT ST SL (y & TX).
  assert (K1 : tk t1 = TIdentifier) by exact (word_kind _ _ _ W1).
  assert (P2 : plain t2) by (split; rewrite (word_kind _ _ _ W2); discriminate). assert (P3 : plain t3) by (split; rewrite K3; discriminate).
  unfold field_rest. rewrite !bind_at. rewrite (is_kind_false TSemicolon) by (rewrite K1; discriminate).
  cbn [d_alone dd with_expr orb andb]. change (trans_code (with_expr (dd None big None))) with (@nil N). rewrite bind_emit, app_nil_r.
  rewrite bind_cur, bind_con by auto. rewrite bind_cur.
  rewrite (is_kind_false TSelf) by (rewrite (word_kind _ _ _ W2); discriminate).
  rewrite bind_con; [|exact (word_kind _ _ _ W2)|auto].
  rewrite (word_text _ _ _ W2), fields_add by auto. rewrite bind_name by auto. rewrite bind_at, (is_kind_false TColon) by (rewrite K3; discriminate). rewrite bind_ret.
  set (p1 := set_struct _ _ p). set (s1 := table1 s n) in *.
  assert (IX : index_of s1 n = index_of T n).
  { rewrite TX. symmetry. apply index_in. exact (proj2 (add_index s n ST SL)). }
  rewrite IX. set (k := index_of T n). set (d := with_expr (dd None big None)).
  set (sh := {| s_array := None; s_arr_op := 0; s_str_op := 0; s_max := 255; s_until := false |}).
  assert (SH : forall B (kk : deco * shape -> par B), pbind (field_shape t1 d) kk (going p1 t3 (t :: r) t2 o s1) = kk (d, sh) (going p1 t3 (t :: r) t2 o s1)).
  { intros B kk. unfold field_shape. rewrite bind_bind, bind_at, is_kind_false by (rewrite K3; discriminate). rewrite bind_bind, bind_ret. cbv zeta. cbn [fst snd].
    assert (MT : forall kw, match_keyword t3 kw = false) by (intros kw; unfold match_keyword; rewrite is_kind_false by (rewrite K3; discriminate); reflexivity).
    rewrite bind_bind, bind_cur, MT. destruct (match_keyword t1 "string"); [|reflexivity].
    rewrite bind_bind, MT, bind_ret, bind_bind, bind_cur, MT. reflexivity. }
  rewrite SH. cbv zeta. cbn [fst snd s_array sh some andb]. rewrite bind_when.
  assert (EM : forall B (kk : unit -> par B) b c q, pbind (when b (emit c)) kk (going p1 t3 (t :: r) t2 q s1) = kk tt (going p1 t3 (t :: r) t2 (q ++ (if b then c else [])) s1)).
  { intros B kk [] c0 q; [reflexivity|]. cbn [when]. rewrite app_nil_r. reflexivity. }
  change (d_be d) with big. rewrite EM. change (open_code d sh k) with (@nil N). rewrite bind_emit, app_nil_r.
  change (d_const d) with (@None N). cbv iota.
  rewrite bind_bind, bind_get, bind_bind, bind_get.
  change (p_structs (going p1 t3 (t :: r) t2 (o ++ (if big then [2] else [])) s1)) with (p_structs p).
  change (p_enums (going p1 t3 (t :: r) t2 (o ++ (if big then [2] else [])) s1)) with (p_enums p).
  rewrite PS, PE. cbn [find_struct find option_map].
  destruct (type_facts _ _ I) as (TN & NS & _).
  rewrite (word_text _ _ _ W1). rewrite find_none.
  2:{ intros J. apply in_map_iff in J as (e & EE & J). apply (proj1 (Forall_forall _ _) EN e J). rewrite EE. apply in_map_iff. exists (ty, w). auto. }
  rewrite keyword_word, W1, NS. unfold basic_field. rewrite bind_bind, bind_get.
  change (p_bitmode (going p1 t3 (t :: r) t2 (o ++ (if big then [2] else [])) s1)) with (p_bitmode p). rewrite BM. cbv zeta. cbn [andb].
  change (0 <? 0) with false. cbv iota. rewrite type_word, W1, TN. change (d_crc d) with (@None N). change (d_expr d) with true. cbv iota.
  rewrite bind_bind, bind_emit. rewrite bind_ret. cbn [when]. rewrite bind_ret. rewrite bind_con by auto.
  destruct big; cbn [when]; [|unfold ret; rewrite ?app_nil_r; cbn [app]; rewrite ?app_nil_r; reflexivity].
  rewrite emit_going, <- !app_assoc. reflexivity.
Qed.
Lemma computed_head c ws : computed_read c ws -> exists w r, ws = w :: r /\ (fst w = TAt \/ fst w = TIdentifier).
Proof. intros (os & ew & ls & w & OR & _ & _ & _ & _ & ->). destruct OR; cbn [app]; eauto 6. Qed.
Lemma leaf_head es f ws : leaf_read es f ws -> exists w r, ws = w :: r /\ (fst w = TAt \/ fst w = TIdentifier).
Proof. destruct f; [apply item_head|apply computed_head]. Qed.

(** ** Programs *)
Definition sym_len (x : sym) : N := 1 + 2 * lenN (snd (fst x)) + lenN (snd x).
Definition syms_len (l : list sym) : N := fold_right (fun x n => sym_len x + n) 0 l.
Lemma syms_len_ok id l : lenN (syms_code id l) = syms_len l.
Proof.
  induction l as [|x l IH]; [reflexivity|]. change (syms_code id (x :: l)) with (instr_bytes (inst id x) ++ syms_code id l). rewrite lenN_app, IH. cbn [syms_len fold_right].
  f_equal. destruct x as [[op ns] a]. unfold instr_bytes, inst, ins, sym_len. cbn [fst snd opcode refs args]. rewrite lenN_cons, lenN_app.
  assert (G : lenN (flat_map (le_bytes 2) (map id ns)) = 2 * lenN ns).
  { clear. induction ns as [|r rs IH]; [reflexivity|]. cbn [map flat_map]. rewrite lenN_app, IH, lenN_cons. change (lenN (le_bytes 2 (id r))) with 2. lia. }
  rewrite G. lia.
Qed.

(** *** The code of a switch *)
Definition real (id : list N -> N) (l : list (option N * list sym)) : list body := map (fun x => (fst x, syms_code id (snd x))) l.
(** Offsets are kept as 32 bits *)
Definition wrapped (l : list body) : list (N * N) := map (fun c => (fst c, snd c mod 2 ^ 32)) (cases_from 0 l).
Definition default_kept (l : list body) : N := match default_from 0 l with Some d => d mod 2 ^ 32 | None => no_default end.
Definition default_used (l : list body) (size : N) : N :=
  if default_kept l =? no_default then (total l + size) mod 2 ^ 32 else default_kept l.
Definition switch_op (l : list body) : N := if some (dense (wrapped l)) then 0x53 else 0x51.
Definition switch_table (l : list body) : list N := table_code (wrapped l) (default_used l (table_size (wrapped l))).
Definition switch_bytes (key : N) (l : list body) : list N :=
  [switch_op l] ++ bytes_of LE 2 key ++ bytes_of LE 4 (total l) ++ bodies_code l (table_size (wrapped l)) ++ switch_table l.
Fixpoint bodies_sym (l : list (option N * list sym)) (after : N) : list sym :=
  match l with
  | [] => []
  | (_, c) :: r => c ++ [(0x52, [], bytes_of LE 4 (total (real (fun _ => 0) r) + after))] ++ bodies_sym r after
  end.
Definition switch_sym (n : list N) (l : list (option N * list sym)) : list sym :=
  let d := real (fun _ => 0) l in
  [(switch_op d, [n], bytes_of LE 4 (total d))] ++ bodies_sym l (table_size (wrapped d)) ++ [(hd 0 (switch_table d), [], tl (switch_table d))].

Fixpoint prog_sym (p : prog) : list sym :=
  match p with
  | End => []
  | Field f r => leaf_sym f ++ prog_sym r
  | If c t e r => cond_sym c ++ [(0x50, [], bytes_of LE 4 (syms_len (prog_sym t) + 5))] ++ prog_sym t ++
      [(0x52, [], bytes_of LE 4 (syms_len (prog_sym e)))] ++ prog_sym e ++ prog_sym r
  | Switch n cs r => switch_sym n (cases_sym cs) ++ prog_sym r
  end
with cases_sym (cs : cases) : list (option N * list sym) :=
  match cs with Stop => [] | Case l b more => (option_map (pattern 0x13) l, prog_sym b) :: cases_sym more end.

Lemma code_same id id' l : lenN (syms_code id l) = lenN (syms_code id' l).
Proof. now rewrite !syms_len_ok. Qed.
Lemma total_real id id' l : total (real id l) = total (real id' l).
Proof. induction l as [|(o & c) l IH]; [reflexivity|]. cbn [real map total fst snd]. rewrite (code_same id id'). fold (real id l). fold (real id' l). now rewrite IH. Qed.
Lemma cases_real id id' l : forall a, cases_from a (real id l) = cases_from a (real id' l).
Proof. induction l as [|(o & c) l IH]; intros a; [reflexivity|]. cbn [real map cases_from fst snd]. rewrite (code_same id id'). fold (real id l). fold (real id' l). now rewrite IH. Qed.
Lemma default_real id id' l : forall a, default_from a (real id l) = default_from a (real id' l).
Proof. induction l as [|(o & c) l IH]; intros a; [reflexivity|]. cbn [real map default_from fst snd]. rewrite (code_same id id'). fold (real id l). fold (real id' l). now rewrite IH. Qed.
Lemma wrapped_real id id' l : wrapped (real id l) = wrapped (real id' l).
Proof. unfold wrapped. now rewrite (cases_real id id'). Qed.
Lemma table_real id id' l : switch_table (real id l) = switch_table (real id' l).
Proof. unfold switch_table, default_used, default_kept. now rewrite (wrapped_real id id'), (default_real id id'), (total_real id id'). Qed.
Lemma bodies_real id l after : syms_code id (bodies_sym l after) = bodies_code (real id l) after.
Proof.
  induction l as [|(o & c) l IH]; [reflexivity|]. cbn [bodies_sym real map bodies_code fst snd]. rewrite !syms_app. fold (real id l). rewrite <- IH. f_equal.
  rewrite (total_real (fun _ => 0) id). unfold syms_code at 1. cbn [map code flat_map inst ins instr_bytes opcode refs args fst snd]. rewrite app_nil_r. reflexivity.
Qed.
Lemma table_some cs d : exists b r, table_code cs d = b :: r.
Proof. unfold table_code. destruct (dense cs) as [(mn & mx)|]; [unfold le8, le4|unfold le2]; cbn [app]; eauto. Qed.
Lemma switch_real id n l : syms_code id (switch_sym n l) = switch_bytes (id n) (real id l).
Proof.
  unfold switch_sym, switch_bytes. cbv zeta. rewrite !syms_app, bodies_real.
  replace (switch_op (real (fun _ => 0) l)) with (switch_op (real id l)) by (unfold switch_op; now rewrite (wrapped_real id (fun _ => 0))).
  rewrite (wrapped_real (fun _ => 0) id), (table_real (fun _ => 0) id), (total_real (fun _ => 0) id).
  destruct (table_some (wrapped (real id l)) (default_used (real id l) (table_size (wrapped (real id l))))) as (b & r & E). fold (switch_table (real id l)) in E. rewrite E.
  unfold syms_code. cbn [map code flat_map inst ins instr_bytes opcode refs args fst snd hd tl]. rewrite !app_nil_r. cbn [app]. reflexivity.
Qed.
Lemma real_app id a b : real id (a ++ b) = real id a ++ real id b.
Proof. apply map_app. Qed.

(** *** Its end *)
Lemma set_out_going c p a x pv o s : set_out c (going p a x pv o s) = going p a x pv c s.
Proof. reflexivity. Qed.
Lemma rel_mod a b d : a = b + d -> rel a b = d mod 2 ^ 32.
Proof.
  intros ->. unfold rel, ofZ. replace (Z.of_N (b + d) - Z.of_N b)%Z with (Z.of_N d) by lia.
  change (2 ^ Z.of_N (8 * 4))%Z with (2 ^ 32)%Z. rewrite <- (N2Z.id (d mod 2 ^ 32)). f_equal. rewrite N2Z.inj_mod. reflexivity.
Qed.
Lemma tail_run pre key l p rb t r pv s : tk rb = TRbrace -> plain t ->
  switch_tail (lenN pre) (wrapped l) (jumps_of (lenN pre + 7) l) (default_kept l) (going p rb (t :: r) pv (pre ++ room key l) s) =
  POk tt (going p t r rb (pre ++ switch_bytes key l) s).
Proof.
  intros K P. unfold switch_tail. rewrite bind_con by auto. unfold here. rewrite bind_get. change (p_out (going p t r rb (pre ++ room key l) s)) with (pre ++ room key l).
  assert (ST : lenN (pre ++ room key l) = lenN pre + 7 + total l).
  { unfold room. rewrite !lenN_app, zeros_len, le2_bytes, lenN_bytes_of. change (lenN [81]) with 1. change (lenN [0; 0; 0; 0]) with 4. lia. }
  rewrite ST. cbv zeta. set (size := table_size (wrapped l)). 
  assert (HW : forall B (k : unit -> par B), pbind (when (some (dense (wrapped l))) (write_at (lenN pre) [0x53])) k (going p t r rb (pre ++ room key l) s) =
    k tt (going p t r rb (pre ++ ([switch_op l] ++ le2 key ++ [0; 0; 0; 0]) ++ zeros l) s)).
  { intros B k. unfold switch_op. destruct (some (dense (wrapped l))); cbn [when]; [|reflexivity].
    apply bind_ok. apply write_mid with (a := pre) (x := [0x51]) (b := le2 key ++ [0; 0; 0; 0] ++ zeros l); reflexivity. }
  rewrite HW. clear HW. rewrite bind_emit.
  rewrite (rel_mod (lenN pre + 7 + total l + size) (lenN pre + 7) (total l + size)) by lia. fold (default_used l size). fold (switch_table l).
  change (table_code (wrapped l) (default_used l size)) with (switch_table l).
  set (op := switch_op l).
  replace (lenN pre + 7 + total l + size) with (lenN (pre ++ [op] ++ le2 key ++ [0; 0; 0; 0]) + total l + size)
    by (rewrite !lenN_app, le2_bytes, lenN_bytes_of; change (lenN [op]) with 1; change (lenN [0; 0; 0; 0]) with 4; lia).
  replace (lenN pre + 7) with (lenN (pre ++ [op] ++ le2 key ++ [0; 0; 0; 0]))
    by (rewrite !lenN_app, le2_bytes, lenN_bytes_of; change (lenN [op]) with 1; change (lenN [0; 0; 0; 0]) with 4; lia).
  erewrite bind_ok.
  2:{ apply patch_spec with (tab := switch_table l). cbn [p_out going set_out set_tok set_strs]. rewrite <- !app_assoc. reflexivity. }
  rewrite set_out_going.
  rewrite (rel_bytes _ _ (total l)) by (rewrite !lenN_app, le2_bytes, lenN_bytes_of; change (lenN [op]) with 1; change (lenN [0; 0; 0; 0]) with 4; lia).
  rewrite write_mid with (a := pre ++ [op] ++ le2 key) (x := [0; 0; 0; 0]) (b := bodies_code l size ++ switch_table l).
  - rewrite set_out_going. do 2 f_equal. unfold switch_bytes. fold op size. rewrite le2_bytes. rewrite <- !app_assoc. reflexivity.
  - cbn [p_out going set_out set_tok set_strs]. rewrite <- !app_assoc. reflexivity.
  - rewrite !lenN_app, le2_bytes, lenN_bytes_of. change (lenN [op]) with 1. lia.
  - reflexivity.
Qed.

Lemma prog_head es pr ws : prog_read es pr ws -> match ws with [] => True | w :: _ => fst w = TAt \/ fst w = TIdentifier \/ fst w = TIf \/ fst w = TSwitch end.
Proof.
  destruct 1 as [|f p ws wr IR R|c t p cw tw wr C T R|c t e p cw tw ew wr C T R1 R|c t c' t' e' p cw tw ew wr C T R1 R|n cs p cw wr CR ND LL R];
    [exact I| |cbn; auto|cbn; auto|cbn; auto|cbn; auto].
  destruct (leaf_head _ _ _ IR) as (w & r & -> & K). cbn. tauto.
Qed.

Lemma nodup_left {A} (a b : list A) : NoDup (a ++ b) -> NoDup a.
Proof. induction a as [|x a IH]; intros ND; [constructor|]. inversion ND as [|? ? NI N2]; subst. constructor; auto. intros I. apply NI. apply in_or_app. auto. Qed.

Section Programs.
Context (E : env) (es : list enum) (EO : enums_ok es).
Definition calm (p : pst) : Prop := p_err p = false /\ p_bitmode p = false /\ p_structs p = [] /\ p_enums p = map edef es.
Definition grown (p : pst) (ns : list (list N)) : pst := set_struct (p_sname p) (p_fields p ++ ns) p.
Lemma calm_grown p ns : calm p -> calm (grown p ns).
Proof. exact (fun c => c). Qed.
Lemma grown_grown p a b : grown (grown p a) b = grown p (a ++ b).
Proof. unfold grown. cbn. now rewrite <- app_assoc. Qed.
Lemma grown_nil p : grown p [] = p.
Proof. unfold grown. rewrite app_nil_r. destruct p; reflexivity. Qed.
Lemma grown_fields p a : p_fields (grown p a) = p_fields p ++ a.
Proof. reflexivity. Qed.

Definition small (s : list (list N)) (ns : list (list N)) (T : list (list N)) : Prop :=
  Forall text s /\ Forall text ns /\ lenN (table s ns) <= 65536 /\ exists y, T = table s ns ++ y.
Lemma small_split s a b T : small s (a ++ b) T -> small s a T /\ small (table s a) b T.
Proof.
  intros (TS & TN & L & (y & ->)). apply Forall_app in TN as (TA & TB). rewrite table_snoc in L |- *. pose proof (table_len (table s a) b) as LL. split.
  - split; [auto|]. split; [auto|]. split; [lia|]. destruct (table_app b (table s a)) as (z & ->). exists (z ++ y). now rewrite app_assoc.
  - split; [now apply table_text|]. split; [auto|]. split; [lia|]. eauto.
Qed.

(** Statements with the fields [fn], the names [pn] and the code [sy]: read by block_loop up to "}", by [m] up to anything but "else" *)
Definition block_gen (fn pn : list (list N)) (sy : list sym) (ws : list word) : Prop := forall ts p y x pv o s t r T,
  map word_of ts = ws -> y :: x = ts ++ t :: r -> Forall plain (ts ++ [t]) -> tk t = TRbrace -> calm p ->
  NoDup (p_fields p ++ fn) -> Forall text (p_fields p ++ fn) -> small s pn T ->
  exists n, forall f, (n <= f)%nat -> block_loop E f (going p y x pv o s) =
    POk tt (going (grown p fn) t r (last ts pv) (o ++ syms_code (index_of T) sy) (table s pn)).
Definition stmt_gen (m : nat -> par unit) (fn pn : list (list N)) (sy : list sym) (ws : list word) : Prop := forall ts p y x pv o s t r T,
  map word_of ts = ws -> y :: x = ts ++ t :: r -> Forall plain (ts ++ [t]) -> tk t <> TElse -> calm p ->
  NoDup (p_fields p ++ fn) -> Forall text (p_fields p ++ fn) -> small s pn T ->
  exists n, forall f, (n <= f)%nat -> m f (going p y x pv o s) =
    POk tt (going (grown p fn) t r (last ts pv) (o ++ syms_code (index_of T) sy) (table s pn)).
Definition block_ok (pr : prog) : list word -> Prop := block_gen (field_names pr) (prog_names pr) (prog_sym pr).
Definition stmt_ok (m : nat -> par unit) (pr : prog) : list word -> Prop := stmt_gen m (field_names pr) (prog_names pr) (prog_sym pr).
Definition if_ok (c : expr) (th el : prog) (ws : list word) : Prop :=
  exists wr, ws = sign TIf "if" :: wr /\ stmt_ok (parse_if E) (If c th el End) wr.
Definition else_part (f : nat) : par unit :=
  let% e := at_kind TElse in
  if e then advance ;; let% i := at_kind TIf in if i then advance ;; parse_if E f else parse_block E f else ret tt.
Definition else_ok (el : prog) (ws : list word) : Prop := stmt_ok else_part el ws.

Lemma plain_mid (a b : list token) t : Forall plain (a ++ b ++ [t]) -> forall h hs r, b ++ t :: r = h :: hs -> Forall plain (a ++ [h]) /\ Forall plain (b ++ [t]).
Proof.
  intros P h hs r EH. apply Forall_app in P as (A & B). split; [|exact B]. apply Forall_app. split; [auto|]. constructor; [|constructor].
  destruct b as [|q b]; injection EH as -> _; exact (Forall_inv B).
Qed.

Lemma block_end : block_ok End [].
Proof.
  intros ts p y x pv o s t r T M X P KT CA ND FT SM. destruct ts; [|discriminate]. injection X as -> ->. exists 1%nat. intros f L. destruct f as [|f]; [lia|].
  cbn [block_loop]. rewrite bind_cur, bind_get. rewrite is_kind_true by auto. cbn [orb field_names prog_names prog_sym]. rewrite grown_nil. cbn. rewrite app_nil_r. reflexivity.
Qed.
(** A first statement, and the rest *)
Definition opens (w : word) : Prop := fst w = TAt \/ fst w = TIdentifier \/ fst w = TIf \/ fst w = TSwitch.
Lemma block_stmt fn pn sy w ws rest wr : stmt_gen (parse_field E) fn pn sy (w :: ws) -> opens w -> prog_read es rest wr -> block_ok rest wr ->
  block_gen (fn ++ field_names rest) (pn ++ prog_names rest) (sy ++ prog_sym rest) ((w :: ws) ++ wr).
Proof.
  intros SG OW PR BR ts p y x pv o s t r T M X P KT CA ND FT SM.
  apply map_eq_app in M as (t1 & t2 & -> & M1 & M2). rewrite <- app_assoc in X, P.
  destruct (next_of t2 t r ltac:(apply Forall_app in P; apply P)) as (h & hs & EH & PH).
  destruct (plain_mid _ _ _ P h hs r EH) as (P1 & P2). apply small_split in SM as (S1 & S2).
  assert (KH : tk h <> TElse).
  { pose proof (prog_head _ _ _ PR) as K. destruct t2 as [|z t2]; injection EH as -> _; [rewrite KT; discriminate|]. rewrite <- M2 in K. cbn [map] in K. intros KK.
    change (fst (word_of h)) with (tk h) in K. rewrite KK in K. intuition discriminate. }
  destruct (SG t1 p y x pv o s h hs T M1 ltac:(now rewrite X, EH) P1 KH CA) as (n1 & K1); auto.
  { rewrite app_assoc in ND. now apply nodup_left in ND. } { rewrite app_assoc in FT. apply Forall_app in FT. apply FT. }
  destruct (BR t2 (grown p fn) h hs (last t1 pv) (o ++ syms_code (index_of T) sy) (table s pn) t r T M2 (eq_sym EH) P2 KT (calm_grown _ _ CA)) as (n2 & K2); auto.
  { rewrite grown_fields, <- app_assoc. exact ND. } { rewrite grown_fields, <- app_assoc. exact FT. }
  exists (S (n1 + n2)). intros f L. destruct f as [|f]; [lia|]. cbn [block_loop]. rewrite bind_cur, bind_get. destruct CA as (C1 & CA).
  change (p_err (going p y x pv o s)) with (p_err p). rewrite C1.
  assert (KY : tk y = TAt \/ tk y = TIdentifier \/ tk y = TIf \/ tk y = TSwitch).
  { destruct t1 as [|z t1]; [discriminate M1|]. injection X as -> _. apply cons_inv in M1 as (<- & _). exact OW. }
  rewrite !is_kind_false by (destruct KY as [-> | [-> | [-> | ->]]]; discriminate). cbn [orb].
  rewrite (bind_ok _ _ _ tt _ (K1 f ltac:(lia))). rewrite K2 by lia. rewrite grown_grown, last_two, syms_app, <- app_assoc, table_snoc. reflexivity.
Qed.
Lemma plain_stmt f ws : item_read es f ws -> stmt_gen (parse_field E) [i_name f] [i_name f] (item_sym f) ws.
Proof.
  intros IR ts p y x pv o s t r T M X P KT (C1 & C2 & C3 & C4) ND FT (TS & _ & L1 & TX).
  assert (NI : ~ In (i_name f) (p_fields p)) by (intros I; apply NoDup_remove_2 in ND; apply ND; apply in_or_app; auto).
  apply Forall_app in FT as (FT1 & _).
  pose proof (item_run E es f ws IR EO ts p y x pv o s t r T M X P C1 C2 C3 C4 NI FT1 TS L1 TX) as K1.
  exists (S (S (length ts))). intros fu L. destruct fu as [|fu]; [lia|]. rewrite (K1 fu ltac:(lia)). reflexivity.
Qed.
Lemma computed_stmt c ws : computed_read c ws -> stmt_gen (parse_field E) [c_name c] (names (c_expr c) ++ [c_name c]) (computed_sym c) ws.
Proof.
  intros CR ts p y x pv o s t r T M X P KT (C1 & C2 & C3 & C4) ND FT SM.
  destruct (computed_head _ _ CR) as (w0 & wt & EW & KW). destruct CR as (os & ew & ls & w & OR & XR & LR & IT & TB & ->).
  assert (KY : tk y = TAt \/ tk y = TIdentifier).
  { rewrite EW in M. destruct ts as [|z ts]; [discriminate M|]. apply cons_inv in M as (<- & _). injection X as -> _. exact KW. }
  clear KW EW w0 wt.
  replace (os ++ [sign TAt "@"; ident "expr"; sign TLparen "("] ++ ew ++ [sign TRparen ")"] ++ ls ++ [ident w; (TIdentifier, c_name c); sign TSemicolon ";"])
    with (os ++ ([sign TAt "@"; ident "expr"; sign TLparen "("] ++ ew ++ [sign TRparen ")"]) ++ ls ++ [ident w; (TIdentifier, c_name c); sign TSemicolon ";"]) in M
    by (rewrite <- !app_assoc; reflexivity).
  apply map_eq_app in M as (to & tq & -> & M1 & M). apply map_eq_app in M as (te & tr_ & -> & M2 & M). apply map_eq_app in M as (tl & t3 & -> & M3 & M4).
  repeat one_token. rename t0 into ht, t1 into nt, t2 into st. rewrite <- !app_assoc in X, P. cbn [app] in X, P.
  assert (PH : Forall plain (ht :: nt :: [st; t])) by (apply Forall_app in P as (_ & P); apply Forall_app in P as (_ & P); apply Forall_app in P as (_ & P); exact P).
  assert (PL : Forall plain (tl ++ [ht])).
  { apply Forall_app in P as (_ & P); apply Forall_app in P as (_ & P); apply Forall_app in P as (P & _). apply Forall_app. split; auto. constructor; auto. exact (Forall_inv PH). }
  destruct (next_of tl ht (nt :: st :: t :: r) PL) as (h1 & hs1 & EH1 & PH1).
  assert (PE : Forall plain (te ++ [h1])).
  { apply Forall_app in P as (_ & P); apply Forall_app in P as (P & _). apply Forall_app. split; auto. }
  destruct (next_of te h1 hs1 PE) as (h2 & hs2 & EH2 & PH2).
  assert (PO : Forall plain (to ++ [h2])) by (apply Forall_app in P as (P & _); apply Forall_app; split; auto).
  apply small_split in SM as ((TS & TN & L1 & TX1) & (TS2 & TN2 & L2 & TX2)).
  assert (X2 : y :: x = to ++ h2 :: hs2) by (rewrite X, <- EH2, <- EH1; reflexivity).
  pose proof (order_steps E _ _ OR to deco0 p y x pv o s h2 hs2 M1 X2 PO) as K1.
  destruct (expr_step E _ _ XR te (bes (c_orders c) deco0) p h2 hs2 (last to pv) o s h1 hs1 T M2 (eq_sym EH2) PE TS L1 TX1) as (n & K2).
  set (o1 := o ++ syms_code (index_of T) (cond_sym (c_expr c))) in *. set (s1 := table s (names (c_expr c))) in *.
  pose proof (order_steps E _ _ LR tl (with_expr (bes (c_orders c) deco0)) p h1 hs1 (last te (last to pv)) o1 s1 ht (nt :: st :: t :: r) M3 (eq_sym EH1) PL) as K3.
  assert (NI : ~ In (c_name c) (p_fields p)) by (intros I; apply NoDup_remove_2 in ND; apply ND; apply in_or_app; auto).
  apply Forall_app in FT as (FT1 & _).
  assert (PT : plain t) by (apply Forall_inv_tail, Forall_inv_tail, Forall_inv_tail, Forall_inv in PH; exact PH).
  pose proof (computed_rest E es (c_type c) w (c_name c) (c_big c) IT EO ht nt st t p r (last tl (last te (last to pv))) o1 s1 T W W0 (word_kind _ _ _ W1) PT C2 C3 C4 NI FT1 TS2 L2 TX2) as K4.
  exists (length (c_orders c) + S (n + length (c_later c) + 4))%nat. intros f L. destruct f as [|f]; [lia|].
  cbn [parse_field]. rewrite bind_get. change (p_err (going p y x pv o s)) with (p_err p). rewrite C1.
  destruct f as [|f]; [lia|]. rewrite bind_skip by (destruct KY as [K|K]; rewrite K; discriminate).
  rewrite bind_get. change (p_cur (going p y x pv o s)) with y.
  assert (EQ : forall (m1 m2 m3 : par unit), match tk y with TSwitch => m1 | TIf => m2 | _ => m3 end = m3) by (intros; destruct KY as [K|K]; now rewrite K).
  rewrite EQ. clear EQ.
  assert (DD : decorators E (S f) deco0 (going p y x pv o s) = POk (with_expr (dd None (c_big c) None)) (going p ht (nt :: st :: t :: r) (last tl (last te (last to pv))) o1 s1)).
  { replace (S f) with (length (c_orders c) + S (length (c_later c) + S (f - length (c_orders c) - length (c_later c) - 1)))%nat by lia.
    rewrite K1, K2 by lia. rewrite K3. cbn [decorators]. rewrite bind_at, is_kind_false by (rewrite (word_kind _ _ _ W); discriminate).
    unfold ret. f_equal. change deco0 with (dd None false None). rewrite bes_dd, bes_expr. unfold c_big. now rewrite last_two. }
  rewrite (bind_ok _ _ _ _ _ DD). rewrite K4. f_equal. unfold grown. f_equal.
  - rewrite !last_two. reflexivity.
  - unfold o1, computed_sym. rewrite !syms_app.
    replace (syms_code (index_of T) [(0x64, [], []); (0x78, [c_name c], []); (0x65, [], [c_type c])]) with ([0x64; 0x78] ++ le2 (index_of T (c_name c)) ++ [0x65; c_type c])
      by (rewrite le2_bytes; reflexivity).
    rewrite <- !app_assoc. destruct (c_big c); reflexivity.
  - unfold s1. rewrite table_snoc. reflexivity.
Qed.
Lemma leaf_stmt f ws : leaf_read es f ws -> stmt_gen (parse_field E) [leaf_name f] (leaf_names f) (leaf_sym f) ws.
Proof. destruct f; [apply plain_stmt|apply computed_stmt]. Qed.

Lemma else_none : else_ok End [].
Proof.
  intros ts p y x pv o s t r T M X P KT CA ND FT SM. destruct ts; [|discriminate]. injection X as -> ->. exists 0%nat. intros f L. unfold else_part.
  rewrite bind_at, is_kind_false by auto. cbn [field_names prog_names prog_sym]. rewrite grown_nil. cbn. rewrite app_nil_r. reflexivity.
Qed.
Lemma block_run pr ws : block_ok pr ws -> stmt_ok (parse_block E) pr ([sign TLbrace "{"] ++ ws ++ [sign TRbrace "}"]).
Proof.
  intros B ts p y x pv o s t r T M X P KT CA ND FT SM. cbn [app] in M. one_token. apply map_eq_app in M as (tb & t2 & -> & M1 & M2). repeat one_token.
  rename t0 into lb, t1 into rb. cbn [app] in X, P. injection X as -> ->. pose proof (Forall_inv P) as PL. apply Forall_inv_tail in P. rewrite <- !app_assoc in P |- *. cbn [app] in P |- *.
  change [rb; t] with ([rb] ++ [t]) in P. rewrite app_assoc in P. apply Forall_app in P as (P1 & PT).
  destruct (next_of tb rb (t :: r) P1) as (h & hs & EH & PH).
  destruct (B tb p h hs lb o s rb (t :: r) T M1 (eq_sym EH) P1 (word_kind _ _ _ W0) CA ND FT SM) as (n & K).
  exists (S n). intros f L. destruct f as [|f]; [lia|]. cbn [parse_block]. rewrite EH. rewrite bind_con; [|exact (word_kind _ _ _ W)|auto].
  rewrite (bind_ok _ _ _ tt _ (K f ltac:(lia))). rewrite consume_going; [|exact (word_kind _ _ _ W0)|exact (Forall_inv PT)].
  do 2 f_equal. rewrite last_cons, last_two. reflexivity.
Qed.
Lemma else_block el ws : block_ok el ws -> else_ok el ([sign TElse "else"; sign TLbrace "{"] ++ ws ++ [sign TRbrace "}"]).
Proof.
  intros B ts p y x pv o s t r T M X P KT CA ND FT SM. cbn [app] in M. one_token. cbn [app] in X, P. injection X as -> ->. pose proof (Forall_inv_tail P) as P'.
  destruct (next_of ts t r P') as (h & hs & EH & PH).
  destruct (block_run _ _ B ts p h hs t0 o s t r T M (eq_sym EH) P' KT CA ND FT SM) as (n & K).
  exists n. intros f L. unfold else_part. rewrite bind_at, is_kind_true by exact (word_kind _ _ _ W). rewrite EH, bind_adv by auto.
  rewrite bind_at. assert (KH : tk h = TLbrace) by (destruct ts as [|z ts]; [discriminate M|]; apply cons_inv in M as (WZ & _); injection EH as -> _; exact (word_kind _ _ _ WZ)).
  rewrite is_kind_false by (rewrite KH; discriminate). rewrite (K f L). rewrite last_cons. reflexivity.
Qed.
Lemma else_if c th el ws : if_ok c th el ws -> else_ok (If c th el End) (sign TElse "else" :: ws).
Proof.
  intros (wr & -> & B) ts p y x pv o s t r T M X P KT CA ND FT SM. one_token. one_token. cbn [app] in X, P. injection X as -> ->.
  pose proof (Forall_inv_tail P) as P1. pose proof (Forall_inv_tail P1) as P2. pose proof (Forall_inv P1) as PI.
  destruct (next_of ts t r P2) as (h & hs & EH & PH).
  destruct (B ts p h hs t1 o s t r T M (eq_sym EH) P2 KT CA ND FT SM) as (n & K).
  exists n. intros f L. unfold else_part. rewrite bind_at, is_kind_true by exact (word_kind _ _ _ W). rewrite bind_adv by auto.
  rewrite bind_at. rewrite is_kind_true by exact (word_kind _ _ _ W0). cbn [app]. rewrite EH, bind_adv by auto. rewrite (K f L). rewrite !last_cons. reflexivity.
Qed.

Lemma rel_bytes a b d : a = b + d -> le4 (rel a b) = bytes_of LE 4 d.
Proof.
  intros ->. rewrite le4_bytes. unfold rel, ofZ. replace (Z.of_N (b + d) - Z.of_N b)%Z with (Z.of_N d) by lia.
  rewrite <- (bytes_of_mod LE 4 d). f_equal. change (2 ^ (8 * Z.of_N 4))%Z with (2 ^ 32)%Z. change (256 ^ N.of_nat 4) with (2 ^ 32).
  rewrite <- (N2Z.id (d mod 2 ^ 32)). f_equal. rewrite N2Z.inj_mod. reflexivity.
Qed.
Lemma write_end p a x pv o m c s v : lenN v = lenN m -> write_at (lenN o) v (going p a x pv (o ++ m ++ c) s) = POk tt (going p a x pv (o ++ v ++ c) s).
Proof.
  intros L. pose proof (bind_write (fun x => ret x) p a x pv o m c s v L) as B. unfold pbind in B. destruct (write_at _ _ _) as [u q| |] eqn:EW; try discriminate B.
  destruct u. exact B.
Qed.
Lemma if_run c th el cw tw ew : condition_read c cw -> block_ok th tw -> else_ok el ew ->
  (match ew with [] => True | w :: _ => fst w = TElse end) -> if_ok c th el (if_words cw tw ++ ew).
Proof.
  intros CR BT EL HW. exists (sign TLparen "(" :: cw ++ [sign TRparen ")"] ++ ([sign TLbrace "{"] ++ tw ++ [sign TRbrace "}"]) ++ ew).
  split; [unfold if_words; cbn [app]; rewrite <- !app_assoc; cbn [app]; rewrite <- app_assoc; reflexivity|].
  intros ts p y x pv o s t r T M X P KT CA ND FT SM. cbn [field_names prog_names] in *.
  one_token. apply map_eq_app in M as (tc & t2 & -> & MC & M). cbn [app] in M. one_token.
  change (sign TLbrace "{" :: (tw ++ [sign TRbrace "}"]) ++ ew) with (([sign TLbrace "{"] ++ tw ++ [sign TRbrace "}"]) ++ ew) in M.
  apply map_eq_app in M as (tb & te & -> & MB & ME). rename t0 into lp, t1 into rp.
  cbn [app] in X, P. injection X as -> ->. pose proof (Forall_inv_tail P) as P'. clear P. rewrite <- !app_assoc in P' |- *. cbn [app] in P' |- *. rewrite <- !app_assoc in P' |- *.
  (* condition *)
  destruct (next_of tc rp (tb ++ te ++ t :: r)) as (h1 & hs1 & EH1 & PH1).
  { apply Forall_app in P' as (A & B). apply Forall_app. split; auto. constructor; auto. exact (Forall_inv B). }
  assert (P1 : Forall plain (tc ++ [rp])) by (apply Forall_app in P' as (A & B); apply Forall_app; split; auto; constructor; auto; exact (Forall_inv B)).
  assert (P2 : Forall plain (tb ++ te ++ [t])) by (apply Forall_app in P' as (A & B); exact (Forall_inv_tail B)).
  apply small_split in SM as (S1 & SM). rewrite app_nil_r in SM, ND, FT. apply small_split in SM as (S2 & S3).
  destruct (next_of te t r ltac:(apply Forall_app in P2; apply P2)) as (h3 & hs3 & EH3 & PH3).
  destruct (plain_mid _ _ _ P2 h3 hs3 r EH3) as (P2' & P3).
  destruct (next_of tb h3 hs3 P2') as (h2 & hs2 & EH2 & PH2).
  destruct S1 as (TS & TN & L1 & TX).
  destruct (cond_run E c cw CR tc p h1 hs1 lp o s rp (tb ++ te ++ t :: r) T MC (eq_sym EH1) P1 (word_kind _ _ _ W0) TS L1 TX) as (n1 & K1).
  set (cc := syms_code (index_of T) (cond_sym c)) in *. set (s1 := table s (names c)) in *.
  assert (ND1 : NoDup (p_fields p ++ field_names th)) by (rewrite app_assoc in ND; now apply nodup_left in ND).
  assert (FT1 : Forall text (p_fields p ++ field_names th)) by (rewrite app_assoc in FT; apply Forall_app in FT; apply FT).
  assert (KH3 : tk h3 = TElse \/ tk h3 <> TElse) by (destruct (kind_eq_dec (tk h3) TElse); auto).
  (* the block wants a token behind that is not else: any will do *)
  cbn [app] in MB. destruct tb as [|lb tb]; [discriminate MB|]. apply cons_inv in MB as (WL & MB). apply map_eq_app in MB as (tt & tq & -> & MT & MR). repeat one_token. rename t0 into rb.
  cbn [app] in P2', EH2. pose proof (Forall_inv P2') as PLB. pose proof (Forall_inv_tail P2') as P2a. rewrite <- app_assoc in P2a. cbn [app] in P2a.
  assert (P2b : Forall plain (tt ++ [rb])) by (change [rb; h3] with ([rb] ++ [h3]) in P2a; rewrite app_assoc in P2a; apply Forall_app in P2a; apply P2a).
  destruct (next_of tt rb (h3 :: hs3) P2b) as (h4 & hs4 & EH4 & PH4).
  destruct (BT tt p h4 hs4 lb ((o ++ cc) ++ [0x50; 0; 0; 0; 0]) s1 rb (h3 :: hs3) T MT (eq_sym EH4) P2b (word_kind _ _ _ W1) CA ND1 FT1 S2) as (n2 & K2).
  set (ct := syms_code (index_of T) (prog_sym th)) in *. set (s2 := table s1 (prog_names th)) in *.
  set (mid := ((((o ++ cc) ++ [0x50]) ++ bytes_of LE 4 (lenN ct + 5)) ++ ct) ++ [0x52; 0; 0; 0; 0]).
  destruct (EL te (grown p (field_names th)) h3 hs3 rb mid s2 t r T ME (eq_sym EH3) P3 KT (calm_grown _ _ CA)) as (n3 & K3).
  { rewrite grown_fields, <- app_assoc. exact ND. } { rewrite grown_fields, <- app_assoc. exact FT. } { exact S3. }
  set (ce := syms_code (index_of T) (prog_sym el)) in *. set (s3 := table s2 (prog_names el)) in *.
  exists (S (S (n1 + n2 + n3))). intros f L. destruct f as [|f]; [lia|]. cbn [parse_if]. rewrite EH1. rewrite bind_con; [|exact (word_kind _ _ _ W)|auto].
  rewrite (bind_ok _ _ _ _ _ (K1 f ltac:(lia))). cbn [app]. rewrite bind_con; [|exact (word_kind _ _ _ W0)|auto].
  unfold here. rewrite bind_get. change (le4 0) with [0; 0; 0; 0]. cbn [app]. rewrite bind_emit.
  match goal with |- context [p_out (going ?p ?a ?x ?v ?o ?s)] => change (p_out (going p a x v o s)) with o end.
  replace ((tt ++ [rb]) ++ te ++ t :: r) with (tt ++ rb :: h3 :: hs3) by (rewrite <- app_assoc, EH3; reflexivity).
  assert (PB : forall B (k : unit -> par B), pbind (parse_block E f) k (going p lb (tt ++ rb :: h3 :: hs3) rp ((o ++ cc) ++ [80; 0; 0; 0; 0]) s1) =
    k Datatypes.tt (going (grown p (field_names th)) h3 hs3 rb (((o ++ cc) ++ [80; 0; 0; 0; 0]) ++ ct) s2)).
  { intros B k. apply bind_ok. destruct f as [|f]; [lia|]. cbn [parse_block]. rewrite EH4. rewrite bind_con; [|exact (word_kind _ _ _ WL)|auto].
    rewrite (bind_ok _ _ _ _ _ (K2 f ltac:(lia))). apply consume_going; [exact (word_kind _ _ _ W1)|exact PH3]. }
  rewrite PB. clear PB. rewrite bind_get, bind_emit, bind_get.
  repeat match goal with |- context [p_out (going ?p ?a ?x ?v ?o ?s)] => change (p_out (going p a x v o s)) with o end.
  set (o1 := o ++ cc). set (o2 := (o1 ++ [80; 0; 0; 0; 0]) ++ ct).
  rewrite (rel_bytes _ _ (lenN ct + 5)) by (unfold o2; rewrite !lenN_app; change (lenN [80; 0; 0; 0; 0]) with 5; change (lenN [82; 0; 0; 0; 0]) with 5; lia).
  replace (lenN o1 + 1) with (lenN (o1 ++ [80])) by (rewrite lenN_app; reflexivity).
  replace (o2 ++ [82; 0; 0; 0; 0]) with ((o1 ++ [80]) ++ [0; 0; 0; 0] ++ (ct ++ [82; 0; 0; 0; 0])) by (unfold o2; rewrite <- !app_assoc; reflexivity).
  rewrite bind_write by (rewrite lenN_bytes_of; reflexivity).
  replace ((o1 ++ [80]) ++ bytes_of LE 4 (lenN ct + 5) ++ ct ++ [82; 0; 0; 0; 0]) with mid by (unfold mid, o1; rewrite <- !app_assoc; reflexivity).
  fold (else_part f). change (pbind (at_kind TElse) ?k) with (pbind (at_kind TElse) k).
  match goal with |- pbind (at_kind TElse) ?k ?q = _ => assert (EP : pbind (at_kind TElse) k q = pbind (else_part f) (fun _ => let% stop := get (fun p => lenN (p_out p)) in write_at (lenN o2 + 1) (le4 (rel stop (lenN o2 + 5)))) q) end.
  { unfold else_part. rewrite bind_bind. reflexivity. }
  rewrite EP. clear EP. rewrite (bind_ok _ _ _ _ _ (K3 f ltac:(lia))). rewrite bind_get.
  match goal with |- context [p_out (going ?p ?a ?x ?v ?o ?s)] => change (p_out (going p a x v o s)) with o end.
  assert (L2 : lenN o2 = lenN ((((o1 ++ [80]) ++ bytes_of LE 4 (lenN ct + 5)) ++ ct))).
  { unfold o2. rewrite !lenN_app, lenN_bytes_of. change (lenN [80; 0; 0; 0; 0]) with 5. change (lenN [80]) with 1. lia. }
  rewrite (rel_bytes _ _ (lenN ce)) by (unfold mid; fold o1; rewrite L2, !lenN_app; change (lenN [82; 0; 0; 0; 0]) with 5; lia).
  replace (lenN o2 + 1) with (lenN ((((o1 ++ [80]) ++ bytes_of LE 4 (lenN ct + 5)) ++ ct) ++ [82])) by (rewrite L2, (lenN_app _ [82]); reflexivity).
  replace (mid ++ ce) with (((((o1 ++ [80]) ++ bytes_of LE 4 (lenN ct + 5)) ++ ct) ++ [82]) ++ [0; 0; 0; 0] ++ ce) by (unfold mid, o1; rewrite <- !app_assoc; reflexivity).
  rewrite write_end by (rewrite lenN_bytes_of; reflexivity). rewrite grown_grown.
  f_equal. f_equal.
  - now rewrite app_nil_r.
  - rewrite last_cons. change (tc ++ rp :: lb :: (tt ++ [rb]) ++ te) with (tc ++ [rp] ++ [lb] ++ (tt ++ [rb]) ++ te). rewrite !last_two. reflexivity.
  - cbn [prog_sym]. rewrite !syms_app. fold cc ct ce. rewrite <- (syms_len_ok (index_of T) (prog_sym th)), <- (syms_len_ok (index_of T) (prog_sym el)). fold ct ce.
    unfold o1. unfold syms_code. cbn [map code flat_map inst ins instr_bytes opcode refs args fst snd]. rewrite !app_nil_r, <- !app_assoc. reflexivity.
  - unfold s3, s2, s1. rewrite !table_snoc. reflexivity.
Qed.
Lemma if_stmt c th el ws : if_ok c th el ws -> stmt_ok (parse_field E) (If c th el End) ws.
Proof.
  intros (wi & -> & IO) ts p y x pv o s t r T M X P KT CA ND FT SM. one_token. rename t0 into ift.
  cbn [app] in X, P. injection X as -> ->. pose proof (Forall_inv_tail P) as P'. clear P.
  destruct (next_of ts t r P') as (h & hs & EH & PH).
  destruct (IO ts p h hs ift o s t r T M (eq_sym EH) P' KT CA ND FT SM) as (n & K).
  exists (S (S n)). intros f L. destruct f as [|f]; [lia|]. cbn [parse_field]. rewrite bind_get. destruct CA as (C1 & CA).
  match goal with |- context [p_err (going ?p ?a ?x ?v ?o ?s)] => change (p_err (going p a x v o s)) with (p_err p) end. rewrite C1.
  destruct f as [|f]; [lia|]. rewrite bind_skip by (rewrite (word_kind _ _ _ W); discriminate). rewrite bind_get.
  match goal with |- context [p_cur (going ?p ?a ?x ?v ?o ?s)] => change (p_cur (going p a x v o s)) with a end. rewrite (word_kind _ _ _ W). cbv iota.
  rewrite EH. rewrite bind_adv by auto. rewrite K by lia. rewrite last_cons. reflexivity.
Qed.
Lemma block_if c th el rest ws wr : if_ok c th el ws -> prog_read es rest wr -> block_ok rest wr -> block_ok (If c th el rest) (ws ++ wr).
Proof.
  intros IO PR BR. pose proof (if_stmt _ _ _ _ IO) as SO. destruct IO as (wi & -> & _).
  pose proof (block_stmt _ _ _ _ _ _ _ SO (or_intror (or_intror (or_introl eq_refl))) PR BR) as B.
  cbn [field_names prog_names prog_sym] in B. rewrite !app_nil_r, <- !app_assoc in B. unfold block_ok. cbn [field_names prog_names prog_sym]. exact B.
Qed.

(** *** Switches *)
Definition cases_ok (cs : cases) (ws : list word) : Prop := forall ts p y x pv pre key l s rb t r T,
  map word_of ts = ws -> y :: x = ts ++ rb :: t :: r -> Forall plain (ts ++ [rb; t]) -> tk rb = TRbrace -> calm p ->
  NoDup (p_fields p ++ case_fields cs) -> Forall text (p_fields p ++ case_fields cs) -> small s (case_names cs) T ->
  NoDup (values l ++ map (pattern 0x13) (labels cs)) ->
  exists n, forall f, (n <= f)%nat ->
    case_loop E f (lenN pre) (wrapped l) (jumps_of (lenN pre + 7) l) (default_kept l) (going p y x pv (pre ++ room key l) s) =
    POk tt (going (grown p (case_fields cs)) t r rb (pre ++ switch_bytes key (l ++ real (index_of T) (cases_sym cs))) (table s (case_names cs))).
Lemma cases_none : cases_ok Stop [].
Proof.
  intros ts p y x pv pre key l s rb t r T M X P KB CA ND FT SM NV. destruct ts; [|discriminate]. cbn [app] in X, P. injection X as -> ->.
  exists 1%nat. intros f L. destruct f as [|f]; [lia|]. cbn [case_loop]. rewrite bind_cur, bind_get. rewrite is_kind_true by auto. cbn [orb].
  cbn [case_fields case_names cases_sym real map table]. rewrite grown_nil, app_nil_r.
  apply tail_run; auto. exact (Forall_inv (Forall_inv_tail P)).
Qed.
Lemma find_value (ms : list (list N * Z)) n z : NoDup (map fst ms) -> In (n, z) ms -> find (fun v => same_text (fst v) n) ms = Some (n, z).
Proof.
  induction ms as [|(m & y) ms IH]; intros ND I; [destruct I|]. cbn [find fst map] in *. apply NoDup_cons_iff in ND as (NI & ND).
  destruct I as [I|I].
  - injection I as -> ->. now rewrite (proj2 (same_text_spec _ _) eq_refl).
  - destruct (same_text m n) eqn:S0; [|now apply IH]. apply same_text_spec in S0. exfalso. apply NI. rewrite S0. apply in_map_iff. exists (n, z). auto.
Qed.
Lemma label_run z w : label_read es (Some z) (sign TCase "case" :: w) -> forall ts p a x pv o s t r, calm p ->
  map word_of ts = w -> a :: x = ts ++ t :: r -> Forall plain (ts ++ [t]) ->
  forall B (k : N -> par B), pbind case_value k (going p a x pv o s) = k (pattern 0x13 z) (going p t r (last ts pv) o s).
Proof.
  intros LR ts p a x pv o s t r (_ & _ & _ & CE) M X P B k. remember (Some z) as sz eqn:EZ. remember (sign TCase "case" :: w) as ww eqn:EW.
  destruct LR as [ty u z' IT WR|e n z' I1 I2|]; [| |discriminate]; injection EZ as ->; injection EW as <-.
  - repeat one_token. cbn [app] in X, P. injection X as -> ->. unfold case_value. rewrite bind_bind, bind_cur. rewrite (word_kind _ _ _ W). cbv iota.
    unfold number_i64. rewrite (word_text _ _ _ W), (writes_i64 _ _ _ WR). rewrite bind_bind. cbn [of_result]. rewrite bind_ret.
    rewrite bind_bind, bind_adv by exact (Forall_inv (Forall_inv_tail P)). rewrite bind_ret, ofZ_wrap. reflexivity.
  - repeat one_token. cbn [app] in X, P. injection X as -> ->. unfold case_value. rewrite bind_bind, bind_cur. rewrite (word_kind _ _ _ W). cbv iota.
    rewrite bind_bind, bind_adv by exact (Forall_inv (Forall_inv_tail P)). rewrite bind_bind, bind_at, is_kind_true by exact (word_kind _ _ _ W0).
    rewrite bind_bind, bind_adv by exact (Forall_inv (Forall_inv_tail (Forall_inv_tail P))). rewrite bind_bind, bind_cur.
    rewrite bind_bind, bind_con; [|exact (word_kind _ _ _ W1)|exact (Forall_inv (Forall_inv_tail (Forall_inv_tail (Forall_inv_tail P))))].
    rewrite bind_bind, bind_get. match goal with |- context [p_enums (going ?p ?a ?x ?v ?o ?s)] => change (p_enums (going p a x v o s)) with (p_enums p) end.
    destruct EO as (ND & _ & _ & EM). rewrite CE, (word_text _ _ _ W), (find_member es e ND I1). cbn [edef en_vals].
    rewrite (word_text _ _ _ W1), (find_value _ _ _ (proj1 (Forall_forall _ _) EM e I1) I2). reflexivity.
Qed.
Definition body_part (f : nat) : par unit := let% b := at_kind TLbrace in if b then parse_block E f else parse_field E f.
Lemma body_block pr ws : block_ok pr ws -> stmt_ok body_part pr ([sign TLbrace "{"] ++ ws ++ [sign TRbrace "}"]).
Proof.
  intros B ts p y x pv o s t r T M X P KT CA ND FT SM.
  destruct (block_run _ _ B ts p y x pv o s t r T M X P KT CA ND FT SM) as (n & K). exists n. intros f L. unfold body_part.
  assert (KY : tk y = TLbrace) by (destruct ts as [|z ts]; [discriminate M|]; cbn [app map] in M; apply cons_inv in M as (WZ & _); injection X as -> _; exact (word_kind _ _ _ WZ)).
  rewrite bind_at, is_kind_true by auto. now apply K.
Qed.
Lemma body_single pr w ws : stmt_ok (parse_field E) pr (w :: ws) -> opens w -> stmt_ok body_part pr (w :: ws).
Proof.
  intros B OW ts p y x pv o s t r T M X P KT CA ND FT SM.
  destruct (B ts p y x pv o s t r T M X P KT CA ND FT SM) as (n & K). exists n. intros f L. unfold body_part.
  assert (KY : opens (word_of y)) by (destruct ts as [|z ts]; [discriminate M|]; apply cons_inv in M as (<- & _); injection X as -> _; exact OW).
  rewrite bind_at, is_kind_false; [now apply K|]. unfold opens in KY. change (fst (word_of y)) with (tk y) in KY. destruct KY as [-> | [-> | [-> | ->]]]; discriminate.
Qed.
Lemma cases_next (cs : cases) ws : cases_read es cs ws -> match ws with [] => True | w :: _ => fst w = TCase \/ fst w = TDefault end.
Proof. destruct 1 as [|l b more lw bw mw LR|l b more lw bw mw LR]; [exact I| |]; destruct LR; cbn; auto. Qed.
Lemma wrapped_snoc l o c : wrapped (l ++ [(o, c)]) = wrapped l ++ match o with Some v => [(v, total l mod 2 ^ 32)] | None => [] end.
Proof. unfold wrapped. rewrite cases_snoc, map_app. f_equal. destruct o; reflexivity. Qed.
Lemma kept_snoc l o c : default_kept (l ++ [(o, c)]) = match o with None => total l mod 2 ^ 32 | Some _ => default_kept l end.
Proof. unfold default_kept. rewrite default_snoc. destruct o; reflexivity. Qed.
Lemma fresh_case l v : ~ In v (values l) -> existsb (fun c => fst c =? v) (wrapped l) = false.
Proof.
  intros NI. apply Bool.not_true_iff_false. intros EX. apply existsb_exists in EX as ((a & b) & I & E0). apply N.eqb_eq in E0. cbn [fst] in E0. subst a.
  apply NI. rewrite <- (values_cases l 0). unfold wrapped in I. apply in_map_iff in I as ((x & d) & EE & I). injection EE as -> _. apply in_map_iff. exists (v, d). auto.
Qed.
Lemma cases_body l b more lw bw mw : label_read es l lw -> stmt_ok body_part b bw -> cases_read es more mw -> cases_ok more mw ->
  cases_ok (Case l b more) (lw ++ [sign TColon ":"] ++ bw ++ mw).
Proof.
  intros LR SB CR IH ts p y x pv pre key ls s rb t r T M X P KB CA ND FT SM NV. cbn [case_fields case_names cases_sym labels] in *.
  apply map_eq_app in M as (tl & tq & -> & ML & M). cbn [app] in M. one_token. rename t0 into cl. apply map_eq_app in M as (tb & tm & -> & MB & MM).
  rewrite <- app_assoc in X, P. cbn [app] in X, P. rewrite <- app_assoc in X, P.
  assert (PM : Forall plain (tm ++ [rb; t])) by (apply Forall_app in P as (_ & P); apply Forall_inv_tail in P; apply Forall_app in P as (_ & P); exact P).
  destruct (next_of tm rb (t :: r)) as (h & hs & EH & PH).
  { change [rb; t] with ([rb] ++ [t]) in PM. rewrite app_assoc in PM. apply Forall_app in PM. apply PM. }
  assert (PB : Forall plain (tb ++ [h])) by (apply Forall_app in P as (_ & P); apply Forall_inv_tail in P; apply Forall_app in P as (P & _); apply Forall_app; auto).
  destruct (next_of tb h hs PB) as (h1 & hs1 & EH1 & PH1).
  assert (PL : Forall plain (tl ++ [cl])).
  { apply Forall_app in P as (P0 & P). apply Forall_app. split; auto. constructor; auto. exact (Forall_inv P). }
  apply small_split in SM as (S1 & S2).
  assert (KH : tk h <> TElse).
  { pose proof (cases_next _ _ CR) as K. destruct tm as [|z tm]; injection EH as -> _; [rewrite KB; discriminate|]. rewrite <- MM in K. cbn [map] in K. intros KK.
    change (fst (word_of h)) with (tk h) in K. rewrite KK in K. intuition discriminate. }
  destruct (SB tb p h1 hs1 cl (pre ++ room key ls) s h hs T MB (eq_sym EH1) PB KH CA) as (n1 & K1); auto.
  { rewrite app_assoc in ND. now apply nodup_left in ND. } { rewrite app_assoc in FT. apply Forall_app in FT. apply FT. }
  set (c := syms_code (index_of T) (prog_sym b)) in *. set (s1 := table s (prog_names b)) in *.
  set (v := option_map (pattern 0x13) l) in *.
  assert (NV2 : NoDup (values (ls ++ [(v, c)]) ++ map (pattern 0x13) (labels more))).
  { rewrite values_app, <- app_assoc. unfold v. rewrite map_app in NV. destruct l as [z|]; exact NV. }
  destruct (IH tm (grown p (field_names b)) h hs (last tb cl) pre key (ls ++ [(v, c)]) s1 rb t r T MM (eq_sym EH) PM KB (calm_grown _ _ CA)) as (n2 & K2); auto.
  { rewrite grown_fields, <- app_assoc. exact ND. } { rewrite grown_fields, <- app_assoc. exact FT. }
  assert (RM : room key (ls ++ [(v, c)]) = room key ls ++ c ++ [0x52; 0; 0; 0; 0]) by (unfold room; rewrite zeros_snoc, <- !app_assoc; reflexivity).
  assert (RL : lenN (pre ++ room key ls) = lenN pre + 7 + total ls).
  { unfold room. rewrite !lenN_app, zeros_len, le2_bytes, lenN_bytes_of. change (lenN [81]) with 1. change (lenN [0; 0; 0; 0]) with 4. lia. }
  rewrite RM, jumps_snoc, wrapped_snoc, kept_snoc in K2.
  exists (S (n1 + n2)). intros f L. destruct f as [|f]; [lia|].
  assert (LO : forall z, existsb (fun c => fst c =? z) (wrapped ls) = false -> True) by auto.
  assert (BP : forall B (k : N -> par B), pbind ((let% b := at_kind TLbrace in if b then parse_block E f else parse_field E f) ;;
      let% j := here in emit ([0x52] ++ le4 0) ;; ret j) k (going p h1 hs1 cl (pre ++ room key ls) s) =
    k (lenN pre + 7 + total ls + lenN c) (going (grown p (field_names b)) h hs (last tb cl) (pre ++ room key ls ++ c ++ [0x52; 0; 0; 0; 0]) s1)).
  { intros B k. fold (body_part f). rewrite bind_bind, (bind_ok _ _ _ _ _ (K1 f ltac:(lia))). unfold here. rewrite bind_bind, bind_get.
    match goal with |- context [p_out (going ?p ?a ?x ?v ?o ?s)] => change (p_out (going p a x v o s)) with o end.
    rewrite bind_bind, bind_emit, bind_ret. rewrite lenN_app, RL. rewrite <- !app_assoc. reflexivity. }
  assert (KC : tk cl = TColon) by exact (word_kind _ _ _ W).
  assert (HE : forall B (k : N -> par B) a x0 pv0 o0 s0, pbind here k (going p a x0 pv0 o0 s0) = k (lenN o0) (going p a x0 pv0 o0 s0)) by reflexivity.
  cbn [case_loop]. rewrite bind_cur, bind_get. match goal with |- context [p_err (going ?p ?a ?x ?v ?o ?s)] => change (p_err (going p a x v o s)) with (p_err p) end.
  destruct CA as (C1 & CA). rewrite C1. replace (tb ++ tm ++ rb :: t :: r) with (h1 :: hs1) in X by (rewrite EH, EH1; reflexivity).
  destruct l as [z|].
  - assert (exists lt tv, tl = lt :: tv /\ tk lt = TCase /\ label_read es (Some z) (sign TCase "case" :: map word_of tv)) as (lt & tv & -> & KL & LR').
    { assert (exists w, lw = sign TCase "case" :: w) as (w & ->) by (inversion LR; subst; eauto). destruct tl as [|lt tv]; [discriminate ML|]. apply cons_inv in ML as (WL & <-).
      exists lt, tv. split; [reflexivity|]. split; [exact (word_kind _ _ _ WL)|]. exact LR. }
    cbn [app] in X, PL. injection X as -> ->. pose proof (Forall_inv_tail PL) as PV.
    rewrite !is_kind_false by (rewrite KL; discriminate). cbn [orb]. rewrite KL. cbv iota.
    destruct (next_of tv cl (h1 :: hs1) PV) as (h2 & hs2 & EH2 & PH2). rewrite EH2. rewrite bind_adv by auto.
    rewrite (label_run z _ LR' tv p h2 hs2 lt _ s cl (h1 :: hs1) (conj C1 CA) eq_refl (eq_sym EH2) PV).
    rewrite bind_con by auto. rewrite fresh_case.
    2:{ cbn [app map] in NV. apply NoDup_remove_2 in NV. intros J. apply NV. apply in_or_app. auto. }
    rewrite bind_when, HE. rewrite BP. rewrite RL. rewrite (rel_mod _ (lenN pre + 7) (total ls)) by lia. cbn [v option_map] in K2. rewrite K2 by lia.
    rewrite grown_grown. unfold s1. rewrite <- table_snoc. rewrite <- app_assoc. reflexivity.
  - assert (exists lt, tl = [lt] /\ tk lt = TDefault) as (lt & -> & KL).
    { assert (lw = [sign TDefault "default"]) as -> by (inversion LR; reflexivity). repeat one_token. eexists. split; [reflexivity|]. exact (word_kind _ _ _ W0). }
    cbn [app] in X, PL. injection X as -> ->. pose proof (Forall_inv (Forall_inv_tail PL)) as PC.
    rewrite !is_kind_false by (rewrite KL; discriminate). cbn [orb]. rewrite KL. cbv iota. rewrite bind_adv by auto.
    rewrite bind_con by auto. rewrite HE, BP, RL. rewrite (rel_mod _ (lenN pre + 7) (total ls)) by lia. cbn [v option_map] in K2. rewrite app_nil_r in K2. rewrite K2 by lia.
    rewrite grown_grown. unfold s1. rewrite <- table_snoc. rewrite <- app_assoc. reflexivity.
Qed.
Lemma switch_stmt n cs cw : cases_ok cs cw -> NoDup (map (pattern 0x13) (labels cs)) ->
  stmt_gen (parse_field E) (case_fields cs) (n :: case_names cs) (switch_sym n (cases_sym cs)) (switch_words n cw).
Proof.
  intros CO NL ts p y x pv o s t r T M X P KT CA ND FT SM. unfold switch_words in M. cbn [app] in M. do 5 one_token.
  apply map_eq_app in M as (tc & tq & -> & MC & M). repeat one_token. rename t0 into sw, t1 into lp, t2 into nt, t3 into rp, t4 into lb, t5 into rb.
  cbn [app] in X, P. injection X as -> ->. rewrite <- app_assoc in P |- *. cbn [app] in P |- *.
  do 5 (let Q := fresh "Q" in pose proof (Forall_inv P) as Q; apply Forall_inv_tail in P).
  change (n :: case_names cs) with ([n] ++ case_names cs) in SM. apply small_split in SM as ((TS & TN & L1 & TX) & S2). cbn [table] in *.
  destruct (next_of tc rb (t :: r)) as (h & hs & EH & PH).
  { change [rb; t] with ([rb] ++ [t]) in P. rewrite app_assoc in P. apply Forall_app in P. apply P. }
  destruct (CO tc p h hs lb o (index_of T n) [] (table1 s n) rb t r T MC (eq_sym EH) P (word_kind _ _ _ W4) CA ND FT S2 NL) as (m & K).
  exists (S (S m)). intros f L. destruct f as [|f]; [lia|]. cbn [parse_field]. rewrite bind_get. destruct CA as (C1 & CA).
  match goal with |- context [p_err (going ?p ?a ?x ?v ?o ?s)] => change (p_err (going p a x v o s)) with (p_err p) end. rewrite C1.
  destruct f as [|f]; [lia|]. rewrite bind_skip by (rewrite (word_kind _ _ _ W); discriminate). rewrite bind_get.
  match goal with |- context [p_cur (going ?p ?a ?x ?v ?o ?s)] => change (p_cur (going p a x v o s)) with a end. rewrite (word_kind _ _ _ W). cbv iota.
  rewrite bind_adv by auto. unfold switch_head.
  rewrite bind_bind, bind_con; [|exact (word_kind _ _ _ W0)|auto]. rewrite bind_bind, bind_cur. rewrite bind_bind, bind_con; [|exact (word_kind _ _ _ W1)|auto].
  rewrite (word_text _ _ _ W1). rewrite bind_bind, bind_name by auto. rewrite bind_bind, bind_con; [|exact (word_kind _ _ _ W2)|auto].
  rewrite EH. rewrite bind_bind, bind_con; [|exact (word_kind _ _ _ W3)|auto]. unfold here. rewrite bind_bind, bind_get.
  match goal with |- context [p_out (going ?p ?a ?x ?v ?o ?s)] => change (p_out (going p a x v o s)) with o end.
  rewrite bind_bind, bind_emit, bind_ret.
  assert (IX : index_of (table1 s n) n = index_of T n).
  { destruct TX as (z & ->). symmetry. apply index_in. exact (proj2 (add_index s n TS L1)). }
  rewrite IX. replace (o ++ [0x51] ++ le2 (index_of T n) ++ le4 0) with (o ++ room (index_of T n) []) by (unfold room; cbn [zeros flat_map]; rewrite app_nil_r; reflexivity).
  rewrite K by lia. f_equal. f_equal.
  - change (tc ++ [rb]) with (tc ++ [rb]). rewrite !last_cons, last_two. reflexivity.
  - rewrite switch_real. reflexivity.
Qed.

Lemma prog_run : (forall pr ws, prog_read es pr ws ->
    block_ok pr ws /\ (forall c t e, pr = If c t e End -> if_ok c t e ws) /\ (single pr -> stmt_ok (parse_field E) pr ws)) /\
  (forall cs ws, cases_read es cs ws -> cases_ok cs ws).
Proof.
  apply (read_ind es (fun pr ws _ => block_ok pr ws /\ (forall c t e, pr = If c t e End -> if_ok c t e ws) /\ (single pr -> stmt_ok (parse_field E) pr ws))
    (fun cs ws _ => cases_ok cs ws)).
  - split; [apply block_end|]. split; [discriminate|contradiction].
  - intros f p ws wr IR R (IH & _). destruct (leaf_head _ _ _ IR) as (w & wt & -> & KW).
    assert (OW : opens w) by (unfold opens; tauto). split; [|split; [discriminate|]].
    + exact (block_stmt _ _ _ _ _ _ _ (leaf_stmt _ _ IR) OW R IH).
    + intros SI. destruct p; try contradiction. inversion R; subst. rewrite app_nil_r. pose proof (leaf_stmt _ _ IR) as LS. unfold stmt_ok. cbn [field_names prog_names prog_sym].
      rewrite !app_nil_r. exact LS.
  - intros c t p cw tw wr C T (IT & _) R (IH & _).
    pose proof (if_run c t End cw tw [] C IT else_none I) as IO. rewrite app_nil_r in IO. split; [now apply block_if|].
    assert (FA : forall c1 t1 e1, If c t End p = If c1 t1 e1 End -> if_ok c1 t1 e1 (if_words cw tw ++ wr)).
    { intros c1 t1 e1 EQ. injection EQ as <- <- <- ->. inversion R; subst. now rewrite app_nil_r. }
    split; [exact FA|]. intros SI. destruct p; try contradiction. apply if_stmt. now apply FA.
  - intros c t e p cw tw ew wr C T (IT & _) R1 (IE & _) R (IH & _).
    pose proof (if_run c t e cw tw _ C IT (else_block _ _ IE) eq_refl) as IO.
    replace (if_words cw tw ++ [sign TElse "else"; sign TLbrace "{"] ++ ew ++ [sign TRbrace "}"] ++ wr)
      with ((if_words cw tw ++ [sign TElse "else"; sign TLbrace "{"] ++ ew ++ [sign TRbrace "}"]) ++ wr) by (rewrite <- (app_assoc (if_words cw tw)); f_equal; cbn [app]; do 2 f_equal; now rewrite <- app_assoc).
    split; [now apply block_if|].
    assert (FA : forall c1 t1 e1, If c t e p = If c1 t1 e1 End -> if_ok c1 t1 e1 ((if_words cw tw ++ [sign TElse "else"; sign TLbrace "{"] ++ ew ++ [sign TRbrace "}"]) ++ wr)).
    { intros c1 t1 e1 EQ. injection EQ as <- <- <- ->. inversion R; subst. now rewrite app_nil_r. }
    split; [exact FA|]. intros SI. destruct p; try contradiction. apply if_stmt. now apply FA.
  - intros c t c' t' e' p cw tw ew wr C T (IT & _) R1 (_ & IE & _) R (IH & _).
    pose proof (if_run c t _ cw tw _ C IT (else_if _ _ _ _ (IE c' t' e' eq_refl)) eq_refl) as IO.
    replace (if_words cw tw ++ sign TElse "else" :: ew ++ wr) with ((if_words cw tw ++ sign TElse "else" :: ew) ++ wr) by (rewrite <- !app_assoc; reflexivity).
    split; [now apply block_if|].
    assert (FA : forall c1 t1 e1, If c t (If c' t' e' End) p = If c1 t1 e1 End -> if_ok c1 t1 e1 ((if_words cw tw ++ sign TElse "else" :: ew) ++ wr)).
    { intros c1 t1 e1 EQ. injection EQ as <- <- <- ->. inversion R; subst. now rewrite app_nil_r. }
    split; [exact FA|]. intros SI. destruct p; try contradiction. apply if_stmt. now apply FA.
  - intros n cs p cw wr CR CO NL LL R (IH & _). pose proof (switch_stmt n cs cw CO NL) as SS. split; [|split; [discriminate|]].
    + exact (block_stmt _ _ _ _ _ _ _ SS (or_intror (or_intror (or_intror eq_refl))) R IH).
    + intros SI. destruct p; try contradiction. inversion R; subst. rewrite app_nil_r. unfold stmt_ok. cbn [field_names prog_names prog_sym].
      rewrite !app_nil_r. exact SS.
  - apply cases_none.
  - intros l b more lw bw mw LR PR (BO & _) CR CO.
    pose proof (cases_body l b more lw _ mw LR (body_block _ _ BO) CR CO) as K. cbn [app] in K. rewrite <- app_assoc in K. exact K.
  - intros l b more lw bw mw LR PR (_ & _ & SO) SI CR CO. specialize (SO SI). pose proof (prog_head _ _ _ PR) as HD.
    destruct bw as [|w bw].
    { exfalso. inversion PR; subst; try contradiction; try discriminate. match goal with H : _ = [] |- _ => apply app_eq_nil in H as (H & _); apply (f_equal (@length _)) in H; try discriminate H end.
      all: match goal with H : leaf_read _ _ _ |- _ => destruct (leaf_head _ _ _ H) as (? & ? & -> & _); discriminate end. }
    exact (cases_body l b more lw _ mw LR (body_single _ _ _ SO HD) CR CO).
Qed.
End Programs.
