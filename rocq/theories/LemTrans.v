(** Integer transforms. *)
From Verif Require Import Base SpecBytes LemBase ModelWord LemWord ModelBits LemBits ModelFloat ModelTrans
  ModelVM SpecVM LemAct LemSafe LemRun LemSafety LemWire LemInstr LemField.
Ltac Zify.zify_post_hook ::= Z.div_mod_to_equations.

Definition small (z : Z) : Prop := fits 8 true z.
Lemma i64_ok z : small z -> i64 z = Ok z.
Proof.
  unfold small, fits, i64. change (2 ^ (8 * Z.of_N 8 - 1))%Z with (2 ^ 63)%Z. intros.
  destruct (Z.leb_spec (- 2 ^ 63) z), (Z.ltb_spec z (2 ^ 63)); cbn; auto; lia.
Qed.
Lemma i64_ub z : ~ small z -> i64 z = Ub UOverflow.
Proof.
  unfold small, fits, i64. change (2 ^ (8 * Z.of_N 8 - 1))%Z with (2 ^ 63)%Z. intros.
  destruct (Z.leb_spec (- 2 ^ 63) z), (Z.ltb_spec z (2 ^ 63)); cbn; auto; lia.
Qed.
Lemma toS_ofZ8 z : small z -> toS 8 (ofZ 8 z) = z.
Proof. intros. apply toS_ofZ; auto. lia. Qed.
Lemma small_toS v : v < 2 ^ 64 -> small (toS 8 v).
Proof.
  intros. unfold small, fits, toS. change (2 ^ (8 * Z.of_N 8 - 1))%Z with 9223372036854775808%Z.
  change (2 ^ Z.of_N (8 * 8))%Z with 18446744073709551616%Z. change (2 ^ (8 * 8 - 1)) with 9223372036854775808.
  change (2 ^ 64) with 18446744073709551616 in H.
  destruct (N.ltb_spec v 9223372036854775808); lia.
Qed.

Lemma raw_ok t z : int_transform t -> small z -> small (raw_number t z) -> int_to_raw t z = Ok (raw_number t z).
Proof.
  intros T Z1 Z2. destruct t; cbn in *; try easy; try now apply i64_ok.
  destruct (i =? 0)%Z; auto. now apply i64_ok.
Qed.
Lemma raw_ub t z : int_transform t -> small z -> ~ small (raw_number t z) -> int_to_raw t z = Ub UOverflow.
Proof.
  intros T Z1 Z2. destruct t; cbn in *; try easy; try now apply i64_ub.
  destruct (i =? 0)%Z; [easy|]. now apply i64_ub.
Qed.
Lemma eng_ok t z : int_transform t -> small z -> small (eng_number t z) -> int_to_eng t z = Ok (eng_number t z).
Proof.
  intros T Z1 Z2. destruct t; cbn in *; try easy; try now apply i64_ok.
  destruct (i =? 0)%Z; auto. now apply i64_ok.
Qed.
Lemma eng_ub t z : int_transform t -> small z -> ~ small (eng_number t z) -> int_to_eng t z = Ub UOverflow.
Proof.
  intros T Z1 Z2. destruct t; cbn in *; try easy; try now apply i64_ub.
  destruct (i =? 0)%Z; [easy|]. now apply i64_ub.
Qed.

Lemma relates_raw t raw eng : relates t raw eng -> raw_number t eng = raw.
Proof.
  destruct t; cbn; try easy; try lia.
  intros [H ->]. destruct (Z.eqb_spec i 0); [easy|]. now apply Z.quot_mul.
Qed.
Lemma relates_eng t raw eng : relates t raw eng -> eng_number t raw = eng.
Proof.
  destruct t; cbn; try easy; try lia.
  intros [H ->]. destruct (Z.eqb_spec i 0); [easy|]. now apply Z.quot_mul.
Qed.

Lemma to_wire_int ty t v : int_transform t -> v < 2 ^ 64 ->
  to_wire ty t v =
    if (- 2 ^ 63 <=? raw_number t (toS 8 v))%Z && (raw_number t (toS 8 v) <? 2 ^ 63)%Z
    then Ok (ofZ (wbytes (i_w ty)) (raw_number t (toS 8 v))) else Ub UOverflow.
Proof.
  intros T V. pose proof (small_toS v V) as S.
  assert (E : to_wire ty t v = bindR (int_to_raw t (toS 8 v)) (fun z => Ok (ofZ (wbytes (i_w ty)) z))) by (now destruct t).
  rewrite E. destruct (Z.leb_spec (- 2 ^ 63) (raw_number t (toS 8 v))), (Z.ltb_spec (raw_number t (toS 8 v)) (2 ^ 63)); cbn [andb].
  - rewrite raw_ok by (auto; split; cbn; lia). reflexivity.
  - rewrite raw_ub by (auto; intros [X Y]; cbn in *; lia). reflexivity.
  - rewrite raw_ub by (auto; intros [X Y]; cbn in *; lia). reflexivity.
  - rewrite raw_ub by (auto; intros [X Y]; cbn in *; lia). reflexivity.
Qed.

Lemma ival_fits ty raw : fits (wbytes (i_w ty)) (i_signed ty) raw -> ival ty (ofZ (wbytes (i_w ty)) raw) = raw.
Proof.
  intros F. unfold ival. pose proof (wbytes_pos (i_w ty)). unfold fits in F. destruct (i_signed ty).
  - apply toS_ofZ; [lia|auto].
  - unfold ofZ. replace (Z.of_N (8 * wbytes (i_w ty))) with (8 * Z.of_N (wbytes (i_w ty)))%Z by lia.
    rewrite Z.mod_small by auto. lia.
Qed.
Lemma from_wire_int ty t raw eng : int_transform t -> raw < 2 ^ (8 * wbytes (i_w ty)) -> small (ival ty raw) ->
  eng_number t (ival ty raw) = eng -> small eng -> from_wire ty t raw = Ok (ofZ 8 eng).
Proof.
  intros T R S E SE.
  assert (X : from_wire ty t raw = bindR (int_to_eng t (toS 8 (ofZ 8 (ival ty raw)))) (fun z => Ok (ofZ 8 z))) by (now destruct t).
  rewrite X, toS_ofZ8, eng_ok by (rewrite ?E; auto). cbn [bindR]. now rewrite E.
Qed.

Lemma eng_op_int op t : int_transform t -> eng_op op t = 0x17.
Proof. now destruct t. Qed.
Lemma eng_w_int w t : int_transform t -> eng_w w t = W8.
Proof. now destruct t. Qed.

Lemma trans_field_encode {H} (host : H -> request -> H * reply) lm bc s h h' r n eng raw :
  wf_bytes bc -> type_bytes (opcode_at bc s) = Some n -> ip s + 3 <= lenN bc ->
  boff s < 8 -> md s = Enc -> int_transform (tr s) -> byte_pos s + n <= lenN (buf s) ->
  let rq := ask (key_at bc s) 0x17 (cvar 8 0) (HField (opcode_at bc s) (tr s)) in
  host h rq = (h', r) -> r_ok r = true -> r_val r = Some (ofZ 8 eng) -> fits 8 true eng ->
  raw = raw_number (tr s) eng -> fits 8 true raw ->
  exists s', interp host (step lm bc s) h = (SCont s', h', [(rq, r)]) /\
    sub (buf s') (byte_pos s) n = bytes_of (en s) (N.to_nat n) (ofZ n raw) /\
    (forall i, i < byte_pos s \/ byte_pos s + n <= i -> nthN (buf s') i = nthN (buf s) i) /\
    position s' = 8 * (byte_pos s + n) /\ tr s' = TNone.
Proof.
  intros WB HT HI B M T HL rq HH HR HV FE ER FR. destruct (type_int _ _ HT) as (w & IT & EW & _).
  set (t := {| i_w := w; i_signed := type_signed (opcode_at bc s) |}) in *.
  assert (EQ : rq = ask (key_at bc s) (eng_op (opcode_at bc s) (tr s)) (PInt (eng_w w (tr s)) 0) (HField (opcode_at bc s) (tr s))).
  { unfold rq. rewrite eng_op_int, eng_w_int by auto. reflexivity. }
  rewrite EQ in HH. pose proof (fun raw => int_enc host lm bc WB s h h' r _ _ raw eq_refl IT HI B M) as X. cbn [i_w] in X.
  change (i_w t) with w in X. rewrite EW in X. specialize (X (ofZ n raw) HL HH HR).
  rewrite eng_w_int in X by auto.
  assert (G : got W8 0 r = ofZ 8 eng).
  { rewrite answer_got. unfold answer. rewrite HV. apply N.mod_small. apply ofZ_bound. }
  rewrite G, to_wire_int in X by (auto; apply ofZ_bound). rewrite toS_ofZ8 in X by auto. rewrite <- ER in X.
  destruct FR as [F1 F2]. change (2 ^ (8 * Z.of_N 8 - 1))%Z with (2 ^ 63)%Z in *.
  destruct (Z.leb_spec (- 2 ^ 63) raw), (Z.ltb_spec raw (2 ^ 63)); try lia. cbn [andb] in X.
  change (i_w t) with w in X. rewrite EW in X. specialize (X eq_refl).
  eexists. split; [rewrite EQ, eng_w_int by auto; exact X|].
  unfold stored. cbn [buf tr].
  assert (LB : lenN (bytes_of (en s) (N.to_nat n) (ofZ n raw)) = n) by (rewrite lenN_bytes_of; lia).
  split.
  { pose proof (sub_put_here (buf s) (byte_pos s) (bytes_of (en s) (N.to_nat n) (ofZ n raw)) ltac:(lia)) as Y.
    rewrite LB in Y. exact Y. }
  split.
  { intros i Hi. rewrite nthN_put by lia.
    destruct (N.leb_spec (byte_pos s) i), (N.ltb_spec i (byte_pos s + lenN (bytes_of (en s) (N.to_nat n) (ofZ n raw)))); cbn; auto; lia. }
  split; [unfold position; cbn [cur boff]; lia|auto].
Qed.

Lemma trans_field_overflow {H} (host : H -> request -> H * reply) lm bc s h h' r n eng :
  wf_bytes bc -> type_bytes (opcode_at bc s) = Some n -> ip s + 3 <= lenN bc ->
  boff s < 8 -> md s = Enc -> int_transform (tr s) -> byte_pos s + n <= lenN (buf s) ->
  let rq := ask (key_at bc s) 0x17 (cvar 8 0) (HField (opcode_at bc s) (tr s)) in
  host h rq = (h', r) -> r_ok r = true -> r_val r = Some (ofZ 8 eng) -> fits 8 true eng ->
  ~ fits 8 true (raw_number (tr s) eng) ->
  interp host (step lm bc s) h = (SUndef UOverflow, h', [(rq, r)]).
Proof.
  intros WB HT HI B M T HL rq HH HR HV FE FR. destruct (type_int _ _ HT) as (w & IT & EW & _).
  set (t := {| i_w := w; i_signed := type_signed (opcode_at bc s) |}) in *.
  destruct (int_class _ _ IT) as [EC EA]. erewrite step_at by (eauto; lia). rewrite align_eq by auto. rewrite byte_pos_ip.
  unfold exec_op. rewrite EC. unfold io_int, io_scalar.
  cbn [ip set_ip set_boff set_cur tr md buf cur en lift]. rewrite key_eq by auto. cbn [lift].
  unfold dlen. cbn [ip set_ip set_boff set_cur tr md buf cur en opt]. change (i_w t) with w. rewrite EW.
  destruct (N.ltb_spec (lenN (buf s)) (byte_pos s + n)); [lia|]. rewrite M.
  rewrite eng_op_int, eng_w_int by auto. erewrite interp_call; [|exact HH|exact HR].
  assert (G : got W8 0 r = ofZ 8 eng).
  { rewrite answer_got. unfold answer. rewrite HV. apply N.mod_small. apply ofZ_bound. }
  rewrite G, to_wire_int by (auto; apply ofZ_bound). rewrite toS_ofZ8 by auto.
  destruct (Z.leb_spec (- 2 ^ 63) (raw_number (tr s) eng)), (Z.ltb_spec (raw_number (tr s) eng) (2 ^ 63)); cbn [andb]; try reflexivity.
  exfalso. apply FR. split; cbn; lia.
Qed.

Lemma trans_field_decode {H} (host : H -> request -> H * reply) lm bc d h h' r n raw eng :
  wf_bytes bc -> wf_bytes (buf d) -> type_bytes (opcode_at bc d) = Some n -> ip d + 3 <= lenN bc ->
  boff d < 8 -> md d = Dec -> int_transform (tr d) -> byte_pos d + n <= lenN (buf d) ->
  number n (type_signed (opcode_at bc d)) (val_of (en d) (sub (buf d) (byte_pos d) n)) = raw ->
  fits 8 true raw -> eng = eng_number (tr d) raw -> fits 8 true eng ->
  let rq := ask (key_at bc d) 0x17 (cvar 8 (ofZ 8 eng)) (HField (opcode_at bc d) (tr d)) in
  host h rq = (h', r) -> r_ok r = true ->
  exists d', interp host (step lm bc d) h = (SCont d', h', [(rq, r)]) /\
    buf d' = buf d /\ position d' = 8 * (byte_pos d + n) /\ tr d' = TNone.
Proof.
  intros WB WF HT HI B M T HL ER FR EE FE rq HH HR. destruct (type_int _ _ HT) as (w & IT & EW & _).
  set (t := {| i_w := w; i_signed := type_signed (opcode_at bc d) |}) in *.
  assert (EQ : rq = ask (key_at bc d) (eng_op (opcode_at bc d) (tr d)) (PInt (eng_w w (tr d)) (ofZ 8 eng)) (HField (opcode_at bc d) (tr d))).
  { unfold rq. rewrite eng_op_int, eng_w_int by auto. reflexivity. }
  rewrite EQ in HH. pose proof (int_dec host lm bc WB d h h' r _ _ (ofZ 8 eng) eq_refl IT HI B M) as X. cbn [i_w] in X.
  change (i_w t) with w in X. rewrite EW in X. specialize (X HL WF HH HR).
  assert (IV : ival t (val_of (en d) (sub (buf d) (byte_pos d) n)) = raw).
  { rewrite number_ival. cbn [t i_w i_signed]. now rewrite EW. }
  rewrite (from_wire_int t (tr d) _ eng) in X; auto.
  - specialize (X eq_refl). rewrite EQ. eexists. split; [exact X|]. unfold taken. cbn [buf tr]. split; auto. split; auto.
    unfold position; cbn [cur boff]; lia.
  - change (i_w t) with w. rewrite EW. replace (2 ^ (8 * n)) with (256 ^ n) by (rewrite N.pow_mul_r; reflexivity).
    pose proof (val_of_bound (en d) (sub (buf d) (byte_pos d) n) (wf_sub _ _ _ WF)) as V.
    rewrite lenN_sub in V by lia. auto.
  - now rewrite IV.
  - now rewrite IV.
Qed.

(** Round trip: the value the host supplied is the value it is told *)
Lemma number_ofZ n sg raw : 1 <= n -> fits n sg raw -> number n sg (ofZ n raw) = raw.
Proof.
  intros HN F. unfold number, ofZ, fits in *. replace (Z.of_N (8 * n)) with (8 * Z.of_N n)%Z by lia. destruct sg; cbn [andb].
  - pose proof (toS_ofZ n raw HN F) as X. unfold toS, ofZ in X. rewrite N.ltb_antisym in X.
    replace (Z.of_N (8 * n)) with (8 * Z.of_N n)%Z in X by lia.
    destruct (_ <=? _); cbn [negb] in X; auto.
  - rewrite Z.mod_small by auto. lia.
Qed.
Lemma type_bytes_bound ty n : type_bytes ty = Some n -> 1 <= n <= 8.
Proof. intros HT. destruct (type_int _ _ HT) as (w & _ & <- & _). apply wbytes_pos. Qed.

Lemma trans_round_trip {H} (host : H -> request -> H * reply) lm bc s h h' r n eng raw s' t :
  wf_bytes bc -> type_bytes (opcode_at bc s) = Some n -> ip s + 3 <= lenN bc ->
  boff s < 8 -> md s = Enc -> byte_pos s + n <= lenN (buf s) ->
  relates (tr s) raw eng -> fits n (type_signed (opcode_at bc s)) raw -> fits 8 true raw -> fits 8 true eng ->
  host h (ask (key_at bc s) 0x17 (cvar 8 0) (HField (opcode_at bc s) (tr s))) = (h', r) -> r_ok r = true ->
  r_val r = Some (ofZ 8 eng) ->
  interp host (step lm bc s) h = (SCont s', h', t) ->
  forall (H2 : Type) (host2 : H2 -> request -> H2 * reply) d g g' r2,
  wf_bytes (buf d) -> md d = Dec -> boff d < 8 -> ip d = ip s -> en d = en s -> tr d = tr s ->
  byte_pos d = byte_pos s -> byte_pos d + n <= lenN (buf d) ->
  sub (buf d) (byte_pos d) n = sub (buf s') (byte_pos s) n ->
  let rq := ask (key_at bc s) 0x17 (cvar 8 (ofZ 8 eng)) (HField (opcode_at bc s) (tr s)) in
  host2 g rq = (g', r2) -> r_ok r2 = true ->
  exists d', interp host2 (step lm bc d) g = (SCont d', g', [(rq, r2)]).
Proof.
  intros WB HT HI B M HL RL FN F8 FE HH HR HV HS H2 host2 d g g' r2 WD MD BD EI EE ET EP LD ES rq HG HR2.
  assert (IT : int_transform (tr s)) by (destruct (tr s); cbn in *; auto).
  edestruct (trans_field_encode host lm bc s h h' r n eng raw) as (s2 & E & SB & _); eauto.
  { symmetry. now apply relates_raw. }
  rewrite HS in E. injection E as <- _.
  assert (EO : opcode_at bc d = opcode_at bc s) by (unfold opcode_at; now rewrite EI).
  assert (EK : key_at bc d = key_at bc s) by (unfold key_at, operand_at; now rewrite EI).
  pose proof (trans_field_decode host2 lm bc d g g' r2 n raw eng WB WD) as X. rewrite EO, EK, ET in X.
  destruct X as (d' & X & _); auto; try lia.
  - rewrite ES, SB, EE, val_bytes. rewrite N2Nat.id. replace (256 ^ n) with (2 ^ (8 * n)) by (rewrite N.pow_mul_r; reflexivity).
    rewrite N.mod_small by apply ofZ_bound. apply number_ofZ; auto. apply type_bytes_bound in HT. lia.
  - symmetry. now apply relates_eng.
  - eauto.
Qed.
(** Set-up instructions *)
Lemma trans_setup {H} (host : H -> request -> H * reply) lm bc s h : wf_bytes bc -> ip s + 9 <= lenN bc ->
  let i := number 8 true (operand_at bc s 1 8) in
  forall t, (opcode_at bc s = 0x45 /\ t = TAdd i) \/ (opcode_at bc s = 0x46 /\ t = TSub i) \/
            (opcode_at bc s = 0x47 /\ t = TMul i) \/ (opcode_at bc s = 0x48 /\ t = TDiv i) ->
  interp host (step lm bc s) h = (SCont (set_tr (set_ip s (ip s + 9)) t), h, []).
Proof.
  intros WB HI i t HT.
  assert (EI : toS 8 (operand_at bc s 1 8) = i).
  { unfold i, toS, number. cbn [andb]. rewrite N.ltb_antisym. destruct (_ <=? _); reflexivity. }
  assert (F : fetch W8 bc (ip s + 1) = Ok (operand_at bc s 1 8, ip s + 9)).
  { rewrite fetch_at by (auto; cbn [wbytes]; lia). unfold operand_at. cbn [wbytes].
    replace (ip s + 1 + 8) with (ip s + 9) by lia. reflexivity. }
  destruct HT as [[HO ->]|[[HO ->]|[[HO ->]|[HO ->]]]];
    rewrite (step_at lm bc s _ ltac:(lia) HO), align_no by reflexivity; unfold exec_op;
    match goal with |- context [classify ?x] => let y := eval vm_compute in (classify x) in change (classify x) with y end;
    cbv iota; unfold trans_int; cbn [ip set_ip]; rewrite F; cbn [lift interp]; rewrite EI; reflexivity.
Qed.
