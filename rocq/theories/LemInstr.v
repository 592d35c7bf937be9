(** Equations for single instructions, used by the property files. *)
From Verif Require Import Base SpecBytes LemBase ModelWord LemWord ModelBits LemBits ModelFloat ModelTrans
  ModelVM SpecVM LemAct LemSafe LemRun LemSafety LemWire.
Ltac Zify.zify_post_hook ::= Z.div_mod_to_equations.

Lemma set_boff_same s : boff s = 0 -> set_boff s 0 = s.
Proof. destruct s; cbn. now intros ->. Qed.
Lemma set_cur_same s : set_cur s (cur s) = s.
Proof. now destruct s. Qed.
Lemma align_eq op s : aligns op = true -> boff s < 8 -> align op s = set_boff (set_cur s (byte_pos s)) 0.
Proof.
  intros A B. unfold align, byte_pos, position. rewrite A. cbn [andb]. destruct (N.eqb_spec (boff s) 0) as [E|E]; cbn [negb].
  - replace ((8 * cur s + boff s + 7) / 8) with (cur s) by lia. rewrite set_cur_same. now rewrite set_boff_same.
  - now replace ((8 * cur s + boff s + 7) / 8) with (cur s + 1) by lia.
Qed.
Lemma align_no op s : aligns op = false -> align op s = s.
Proof. intros A. unfold align. now rewrite A. Qed.
Lemma fetch_at w bc p : wf_bytes bc -> p + wbytes w <= lenN bc ->
  fetch w bc p = Ok (val_of LE (sub bc p (wbytes w)), p + wbytes w).
Proof.
  intros W L. rewrite fetch_ok, fetchv_eq by auto. destruct (N.leb_spec (p + wbytes w) (lenN bc)); [auto|lia].
Qed.
Lemma step_at lm bc s op : ip s < lenN bc -> opcode_at bc s = op ->
  step lm bc s = exec_op lm bc op (align op (set_ip s (ip s + 1))).
Proof. intros HI <-. now apply step_fetch. Qed.
Lemma interp_ask {H} (host : H -> request -> H * reply) rq k h h1 r : host h rq = (h1, r) ->
  interp host (Ask rq k) h = let '(x, h2, t) := interp host (k r) h1 in (x, h2, (rq, r) :: t).
Proof. intros E. cbn [interp]. now rewrite E. Qed.
Lemma interp_call {H} (host : H -> request -> H * reply) s key op p hw k h h1 r : host h (ask key op p hw) = (h1, r) ->
  r_ok r = true ->
  interp host (call s key op p hw k) h = let '(x, h2, t) := interp host (k r) h1 in (x, h2, (ask key op p hw, r) :: t).
Proof. intros E R. unfold call. erewrite interp_ask; [|exact E]. now rewrite R. Qed.
Lemma interp_call_no {H} (host : H -> request -> H * reply) s key op p hw k h h1 r : host h (ask key op p hw) = (h1, r) ->
  r_ok r = false ->
  interp host (call s key op p hw k) h = (SHalt ECallback s, h1, [(ask key op p hw, r)]).
Proof. intros E R. unfold call. erewrite interp_ask; [|exact E]. now rewrite R. Qed.

Lemma type_int ty n : type_bytes ty = Some n -> exists w,
  int_type ty = Some {| i_w := w; i_signed := type_signed ty |} /\ wbytes w = n /\
  classify ty = CInt {| i_w := w; i_signed := type_signed ty |} /\ aligns ty = true.
Proof.
  intros E. unfold type_bytes in E.
  repeat match goal with
  | H : match ?x with _ => _ end = Some _ |- _ => destruct x; try discriminate H;
     try (inversion H; subst; eexists; split; [reflexivity|split; [reflexivity|split; reflexivity]])
  end.
Qed.
Lemma cvar_w w v : cvar (wbytes w) v = PInt w v.
Proof. now destruct w. Qed.
Lemma answer_got w v r : got w v r = answer (wbytes w) v r.
Proof. reflexivity. Qed.
Lemma number_ival t v : ival t v = number (wbytes (i_w t)) (i_signed t) v.
Proof.
  unfold ival, number, toS. destruct (i_signed t); auto. cbn [andb]. rewrite N.ltb_antisym.
  destruct (_ <=? v); cbn [negb]; auto. f_equal. f_equal. lia.
Qed.

(** The state after the opcode byte and alignment *)
Definition at_byte (s : st) (k : N) : st := set_ip (set_boff (set_cur s (byte_pos s)) 0) (ip s + k).

Section Scalar.
  Context {H : Type} (host : H -> request -> H * reply) (lm : libm) (bc : list N).
  Hypothesis WB : wf_bytes bc.

  Definition stored (s : st) (k : N) (n raw : N) : st :=
    let p := byte_pos s in
    mkst (md s) (put (buf s) p (bytes_of (en s) (N.to_nat n) raw)) (ip s + k) (p + n) 0 (en s) TNone false (loops s) (stk s).
  Definition taken (s : st) (k n : N) : st :=
    mkst (md s) (buf s) (ip s + k) (byte_pos s + n) 0 (en s) TNone false (loops s) (stk s).

  Lemma byte_pos_ip s k : byte_pos (set_ip s k) = byte_pos s.
  Proof. reflexivity. Qed.
  Lemma nbytes_w w : nbytes w = N.to_nat (wbytes w).
  Proof. now destruct w. Qed.

  Lemma key_eq s : ip s + 3 <= lenN bc -> fetch W2 bc (ip s + 1) = Ok (key_at bc s, ip s + 3).
  Proof.
    intros L. rewrite fetch_at by (auto; cbn [wbytes]; lia). unfold key_at, operand_at. cbn [wbytes].
    replace (ip s + 1 + 2) with (ip s + 3) by lia. reflexivity.
  Qed.

  Lemma int_class ty t : int_type ty = Some t -> classify ty = CInt t /\ aligns ty = true.
  Proof.
    intros E. pose proof (int_type_bytes _ _ E) as E2. destruct (type_int _ _ E2) as (w & E3 & _ & EC & EA).
    rewrite E in E3. injection E3 as ->. auto.
  Qed.
  Ltac enter_int E := destruct (int_class _ _ E) as [EC EA];
    erewrite step_at by (eauto; lia); rewrite align_eq by auto; rewrite byte_pos_ip;
    unfold exec_op; rewrite EC; unfold io_int, io_scalar;
    cbn [ip set_ip set_boff set_cur tr md buf cur en lift]; rewrite key_eq by auto; cbn [lift];
    unfold dlen; cbn [ip set_ip set_boff set_cur tr md buf cur en opt].

  Lemma int_enc s h h' r ty t raw : opcode_at bc s = ty -> int_type ty = Some t -> ip s + 3 <= lenN bc ->
    boff s < 8 -> md s = Enc -> byte_pos s + wbytes (i_w t) <= lenN (buf s) ->
    let rq := ask (key_at bc s) (eng_op ty (tr s)) (PInt (eng_w (i_w t) (tr s)) 0) (HField ty (tr s)) in
    host h rq = (h', r) -> r_ok r = true ->
    to_wire t (tr s) (got (eng_w (i_w t) (tr s)) 0 r) = Ok raw ->
    interp host (step lm bc s) h = (SCont (stored s 3 (wbytes (i_w t)) raw), h', [(rq, r)]).
  Proof.
    intros HO HT HI B M HL rq HH HR HW. enter_int HT.
    destruct (N.ltb_spec (lenN (buf s)) (byte_pos s + wbytes (i_w t))); [lia|]. rewrite M.
    erewrite interp_call; [|exact HH|exact HR]. rewrite HW. cbn [lift]. rewrite write_word_eq.
    destruct (N.leb_spec (byte_pos s + wbytes (i_w t)) (lenN (buf s))); [|lia]. cbn [lift interp].
    rewrite nbytes_w. unfold stored. reflexivity.
  Qed.
  Lemma int_dec s h h' r ty t v : opcode_at bc s = ty -> int_type ty = Some t -> ip s + 3 <= lenN bc ->
    boff s < 8 -> md s = Dec -> byte_pos s + wbytes (i_w t) <= lenN (buf s) -> wf_bytes (buf s) ->
    let rq := ask (key_at bc s) (eng_op ty (tr s)) (PInt (eng_w (i_w t) (tr s)) v) (HField ty (tr s)) in
    host h rq = (h', r) -> r_ok r = true ->
    from_wire t (tr s) (val_of (en s) (sub (buf s) (byte_pos s) (wbytes (i_w t)))) = Ok v ->
    interp host (step lm bc s) h = (SCont (taken s 3 (wbytes (i_w t))), h', [(rq, r)]).
  Proof.
    intros HO HT HI B M HL WF rq HH HR HW. enter_int HT.
    destruct (N.ltb_spec (lenN (buf s)) (byte_pos s + wbytes (i_w t))); [lia|]. rewrite M.
    rewrite read_word_eq by auto.
    destruct (N.leb_spec (byte_pos s + wbytes (i_w t)) (lenN (buf s))); [|lia]. cbn [lift]. rewrite HW. cbn [lift].
    erewrite interp_call; [|exact HH|exact HR]. cbn [interp]. unfold taken. reflexivity.
  Qed.
  Lemma int_short s h ty t : opcode_at bc s = ty -> int_type ty = Some t -> ip s + 3 <= lenN bc ->
    boff s < 8 -> lenN (buf s) < byte_pos s + wbytes (i_w t) -> opt s = false ->
    exists s', interp host (step lm bc s) h = (SHalt EOob s', h, []) /\ buf s' = buf s.
  Proof.
    intros HO HT HI B HL OP. enter_int HT. rewrite OP.
    destruct (N.ltb_spec (lenN (buf s)) (byte_pos s + wbytes (i_w t))); [|lia]. eexists. split; reflexivity.
  Qed.
End Scalar.

Section BitField.
  Context {H : Type} (host : H -> request -> H * reply) (lm : libm) (bc : list N).
  Hypothesis WB : wf_bytes bc.

  Definition at_bits (s : st) (k : N) (b : list N) (c o : N) : st :=
    mkst (md s) b (ip s + k) c o (en s) (tr s) (opt s) (loops s) (stk s).

  Lemma arg1_eq p : p + 1 <= lenN bc -> fetch W1 bc p = Ok (nthN bc p, p + 1).
  Proof.
    intros L. rewrite fetch_ok. rewrite (surjective_pairing (fetchv W1 bc p)), fetchv1 by auto.
    rewrite fetchv_eq by auto. cbn [wbytes]. destruct (N.leb_spec (p + 1) (lenN bc)); [reflexivity|lia].
  Qed.
  Ltac enter_bits HO := rewrite (step_at lm bc _ _) with (2 := HO) by lia; rewrite align_no by reflexivity;
    unfold exec_op;
    match goal with |- context [classify ?x] => let y := eval vm_compute in (classify x) in change (classify x) with y end;
    cbv iota; unfold io_bit_u, io_bit_i, io_bit_bool, put_bits, get_bits;
    cbn [ip set_ip]; rewrite key_eq by (auto; lia); cbn [lift].

  (** BIT_U and BIT_I write the same bits *)
  Lemma bit_enc s h h' r op b c o : opcode_at bc s = op -> op = 0x20 \/ op = 0x21 -> ip s + 4 <= lenN bc -> md s = Enc ->
    let n := nthN bc (ip s + 3) in
    let rq := ask (key_at bc s) op (PInt W8 0) (if op =? 0x20 then HBitU n else HBitI n) in
    host h rq = (h', r) -> r_ok r = true ->
    write_bits (en s) (buf s) (cur s) (boff s) (got W8 0 r) n = Ok (b, c, o) ->
    interp host (step lm bc s) h = (SCont (at_bits s 4 b c o), h', [(rq, r)]).
  Proof.
    intros HO [-> | ->] HI M n rq HH HR HW; enter_bits HO; rewrite arg1_eq by lia; cbn [lift md set_ip]; rewrite M;
      (erewrite interp_call; [|exact HH|exact HR]); cbn [en buf cur boff set_ip]; fold n; rewrite HW; cbn [lift interp];
      unfold at_bits; cbn; replace (ip s + 3 + 1) with (ip s + 4) by lia; reflexivity.
  Qed.
  Lemma bit_u_dec s h h' r v c o : opcode_at bc s = 0x20 -> ip s + 4 <= lenN bc -> md s = Dec ->
    let n := nthN bc (ip s + 3) in
    let rq := ask (key_at bc s) 0x20 (PInt W8 v) (HBitU n) in
    read_bits (en s) (buf s) (cur s) (boff s) n = Ok (v, c, o) ->
    host h rq = (h', r) -> r_ok r = true ->
    interp host (step lm bc s) h = (SCont (at_bits s 4 (buf s) c o), h', [(rq, r)]).
  Proof.
    intros HO HI M n rq HW HH HR; enter_bits HO; rewrite arg1_eq by lia; cbn [lift md set_ip]; rewrite M.
    cbn [en buf cur boff set_ip]; fold n; rewrite HW; cbn [lift].
    erewrite interp_call; [|exact HH|exact HR]. cbn [interp].
    unfold at_bits; cbn; replace (ip s + 3 + 1) with (ip s + 4) by lia; reflexivity.
  Qed.
  Lemma bit_i_dec s h h' r raw v c o : opcode_at bc s = 0x21 -> ip s + 4 <= lenN bc -> md s = Dec ->
    let n := nthN bc (ip s + 3) in
    let rq := ask (key_at bc s) 0x21 (PInt W8 v) (HBitI n) in
    read_bits (en s) (buf s) (cur s) (boff s) n = Ok (raw, c, o) -> sign_extend raw n = Ok v ->
    host h rq = (h', r) -> r_ok r = true ->
    interp host (step lm bc s) h = (SCont (at_bits s 4 (buf s) c o), h', [(rq, r)]).
  Proof.
    intros HO HI M n rq HW HS HH HR; enter_bits HO; rewrite arg1_eq by lia; cbn [lift md set_ip]; rewrite M.
    cbn [en buf cur boff set_ip]; fold n; rewrite HW; cbn [lift]. rewrite HS. cbn [lift].
    erewrite interp_call; [|exact HH|exact HR]. cbn [interp].
    unfold at_bits; cbn; replace (ip s + 3 + 1) with (ip s + 4) by lia; reflexivity.
  Qed.
  Lemma bit_bool_enc s h h' r b c o : opcode_at bc s = 0x22 -> ip s + 3 <= lenN bc -> md s = Enc ->
    let rq := ask (key_at bc s) 0x22 (PInt W1 0) HBitBool in
    host h rq = (h', r) -> r_ok r = true -> got W1 0 r <= 1 ->
    write_bits (en s) (buf s) (cur s) (boff s) (got W1 0 r) 1 = Ok (b, c, o) ->
    interp host (step lm bc s) h = (SCont (at_bits s 3 b c o), h', [(rq, r)]).
  Proof.
    intros HO HI M rq HH HR HG HW; enter_bits HO; cbn [md set_ip]; rewrite M.
    erewrite interp_call; [|exact HH|exact HR]. destruct (N.ltb_spec 1 (got W1 0 r)); [lia|].
    cbn [en buf cur boff set_ip]; rewrite HW; cbn [lift interp].
    reflexivity.
  Qed.
  Lemma bit_bool_enc_bad s h h' r : opcode_at bc s = 0x22 -> ip s + 3 <= lenN bc -> md s = Enc ->
    let rq := ask (key_at bc s) 0x22 (PInt W1 0) HBitBool in
    host h rq = (h', r) -> r_ok r = true -> 1 < got W1 0 r ->
    exists s', interp host (step lm bc s) h = (SHalt EValidation s', h', [(rq, r)]) /\ buf s' = buf s.
  Proof.
    intros HO HI M rq HH HR HG; enter_bits HO; cbn [md set_ip]; rewrite M.
    erewrite interp_call; [|exact HH|exact HR]. destruct (N.ltb_spec 1 (got W1 0 r)); [|lia].
    eexists. cbn [interp]. split; reflexivity.
  Qed.
  Lemma bit_bool_dec s h h' r v c o : opcode_at bc s = 0x22 -> ip s + 3 <= lenN bc -> md s = Dec ->
    let rq := ask (key_at bc s) 0x22 (PInt W1 (trunc 1 v)) HBitBool in
    read_bits (en s) (buf s) (cur s) (boff s) 1 = Ok (v, c, o) ->
    host h rq = (h', r) -> r_ok r = true ->
    interp host (step lm bc s) h = (SCont (at_bits s 3 (buf s) c o), h', [(rq, r)]).
  Proof.
    intros HO HI M rq HW HH HR; enter_bits HO; cbn [md set_ip]; rewrite M.
    cbn [en buf cur boff set_ip]; rewrite HW; cbn [lift].
    erewrite interp_call; [|exact HH|exact HR]. cbn [interp]. reflexivity.
  Qed.
End BitField.
