(** Field-level lemmas: what an encoding instruction writes, a decoding one reports. *)
From Verif Require Import Base SpecBytes LemBase ModelWord LemWord ModelBits LemBits ModelFloat ModelTrans
  ModelVM SpecVM LemAct LemSafe LemRun LemSafety LemWire LemInstr.
Ltac Zify.zify_post_hook ::= Z.div_mod_to_equations.

Lemma sub_put_here b p l : p + lenN l <= lenN b -> sub (put b p l) p (lenN l) = l.
Proof. apply sub_put_same. Qed.

Lemma int_field_encode {H} (host : H -> request -> H * reply) lm bc s h h' r n :
  wf_bytes bc -> type_bytes (opcode_at bc s) = Some n -> ip s + 3 <= lenN bc ->
  boff s < 8 -> md s = Enc -> tr s = TNone -> byte_pos s + n <= lenN (buf s) ->
  let rq := ask (key_at bc s) (opcode_at bc s) (cvar n 0) (HField (opcode_at bc s) TNone) in
  host h rq = (h', r) -> r_ok r = true ->
  exists s', interp host (step lm bc s) h = (SCont s', h', [(rq, r)]) /\
    sub (buf s') (byte_pos s) n = bytes_of (en s) (N.to_nat n) (answer n 0 r) /\
    (forall i, i < byte_pos s \/ byte_pos s + n <= i -> nthN (buf s') i = nthN (buf s) i) /\
    lenN (buf s') = lenN (buf s) /\ position s' = 8 * (byte_pos s + n) /\ ip s' = ip s + 3.
Proof.
  intros WB HT HI B M T HL rq HH HR. destruct (type_int _ _ HT) as (w & IT & EW & _).
  assert (EQ : rq = ask (key_at bc s) (eng_op (opcode_at bc s) (tr s)) (PInt (eng_w w (tr s)) 0) (HField (opcode_at bc s) (tr s))).
  { unfold rq. rewrite T, <- EW, cvar_w. reflexivity. }
  rewrite EQ in HH. pose proof (fun raw => int_enc host lm bc WB s h h' r _ _ raw eq_refl IT HI B M) as X. cbn [i_w] in X.
  rewrite EW in X. specialize (X (answer n 0 r) HL HH HR). rewrite T in X.
  rewrite <- EW in X at 1. specialize (X eq_refl). rewrite <- EW in X at 2.
  eexists. rewrite EQ, T. rewrite EW in X. split; [exact X|]. unfold stored. cbn [buf position cur boff ip].
  assert (LB : lenN (bytes_of (en s) (N.to_nat n) (answer n 0 r)) = n) by (rewrite lenN_bytes_of; lia).
  split.
  { pose proof (sub_put_here (buf s) (byte_pos s) (bytes_of (en s) (N.to_nat n) (answer n 0 r)) ltac:(lia)) as Y.
    rewrite LB in Y. exact Y. }
  split.
  { intros i Hi. rewrite nthN_put by lia.
    destruct (N.leb_spec (byte_pos s) i), (N.ltb_spec i (byte_pos s + lenN (bytes_of (en s) (N.to_nat n) (answer n 0 r)))); cbn; auto; lia. }
  split; [apply lenN_put; lia|]. split; [unfold position; cbn [cur boff]; lia|auto].
Qed.

Lemma int_field_decode {H} (host : H -> request -> H * reply) lm bc s h h' r n :
  wf_bytes bc -> wf_bytes (buf s) -> type_bytes (opcode_at bc s) = Some n -> ip s + 3 <= lenN bc ->
  boff s < 8 -> md s = Dec -> tr s = TNone -> byte_pos s + n <= lenN (buf s) ->
  let rq := ask (key_at bc s) (opcode_at bc s) (cvar n (val_of (en s) (sub (buf s) (byte_pos s) n))) (HField (opcode_at bc s) TNone) in
  host h rq = (h', r) -> r_ok r = true ->
  exists s', interp host (step lm bc s) h = (SCont s', h', [(rq, r)]) /\
    buf s' = buf s /\ position s' = 8 * (byte_pos s + n) /\ ip s' = ip s + 3.
Proof.
  intros WB WF HT HI B M T HL rq HH HR. destruct (type_int _ _ HT) as (w & IT & EW & _).
  set (v := val_of (en s) (sub (buf s) (byte_pos s) n)) in *.
  assert (EQ : rq = ask (key_at bc s) (eng_op (opcode_at bc s) (tr s)) (PInt (eng_w w (tr s)) v) (HField (opcode_at bc s) (tr s))).
  { unfold rq. rewrite T, <- EW, cvar_w. reflexivity. }
  rewrite EQ in HH. pose proof (int_dec host lm bc WB s h h' r _ _ v eq_refl IT HI B M) as X. cbn [i_w] in X.
  rewrite EW in X. specialize (X HL WF HH HR). rewrite T in X. specialize (X eq_refl).
  eexists. rewrite EQ, T. split; [exact X|]. unfold taken. cbn [buf ip]. split; auto. split; auto. unfold position; cbn [cur boff]; lia.
Qed.

Lemma int_field_short {H} (host : H -> request -> H * reply) lm bc s h n :
  wf_bytes bc -> type_bytes (opcode_at bc s) = Some n -> ip s + 3 <= lenN bc ->
  boff s < 8 -> opt s = false -> lenN (buf s) < byte_pos s + n ->
  exists s', interp host (step lm bc s) h = (SHalt EOob s', h, []) /\ buf s' = buf s.
Proof.
  intros WB HT HI B OP HL. destruct (type_int _ _ HT) as (w & IT & EW & _).
  eapply int_short; eauto. cbn [i_w]. lia.
Qed.

Lemma int_field_round_trip {H} (host : H -> request -> H * reply) lm bc s h h' r n s' t :
  wf_bytes bc -> type_bytes (opcode_at bc s) = Some n -> ip s + 3 <= lenN bc ->
  boff s < 8 -> md s = Enc -> tr s = TNone -> byte_pos s + n <= lenN (buf s) ->
  host h (ask (key_at bc s) (opcode_at bc s) (cvar n 0) (HField (opcode_at bc s) TNone)) = (h', r) -> r_ok r = true ->
  interp host (step lm bc s) h = (SCont s', h', t) ->
  forall d, sub (buf d) (byte_pos s) n = sub (buf s') (byte_pos s) n -> en d = en s -> byte_pos d = byte_pos s ->
  val_of (en d) (sub (buf d) (byte_pos d) n) = answer n 0 r.
Proof.
  intros WB HT HI B M T HL HH HR HS d ES EE EP.
  edestruct (int_field_encode host lm) as (s2 & X & Y & _); try eassumption.
  rewrite HS in X. injection X as <- _. rewrite EP, ES, Y, EE, val_bytes.
  unfold answer. destruct (r_val r).
  - rewrite N2Nat.id. replace (256 ^ n) with (2 ^ (8 * n)) by (rewrite N.pow_mul_r; reflexivity). apply N.mod_mod.
    apply N.pow_nonzero. lia.
  - reflexivity.
Qed.

(** ** Bit fields *)
Lemma read_bits_value e b c o n (f : N -> bool) : wf_bytes b -> o < 8 -> n <= 64 -> 8 * c + o + n <= 8 * lenN b ->
  exists v c' o', read_bits e b c o n = Ok (v, c', o') /\ o' < 8 /\ 8 * c' + o' = 8 * c + o + n /\
    forall k, N.testbit v k = (k <? n) && sbit e b (match e with LE => 8 * c + o + k | BE => 8 * c + o + (n - 1 - k) end).
Proof.
  intros W O HN HL. pose proof (read_bits_spec e b c o n W O) as S. cbv zeta in S.
  destruct (read_bits e b c o n) as [[[x c2] o2]|u]; [|lia].
  replace (N.min n (8 * lenN b - (8 * c + o))) with n in S by lia. destruct S as (O2 & P2 & V & F).
  exists x, c2, o2. repeat split; auto. intros k. specialize (F HN k). rewrite F. destruct e; reflexivity.
Qed.
Lemma read_bits_same e b b' c o n x c' o' : wf_bytes b -> wf_bytes b' -> o < 8 -> n <= 64 ->
  8 * c + o + n <= 8 * lenN b -> 8 * c + o + n <= 8 * lenN b' ->
  (forall j, 8 * c + o <= j < 8 * c + o + n -> sbit e b j = sbit e b' j) ->
  read_bits e b c o n = Ok (x, c', o') -> read_bits e b' c o n = Ok (x, c', o').
Proof.
  intros W W' O HN L L' A R.
  destruct (read_bits_value e b c o n (fun _ => false) W O HN L) as (v1 & c1 & o1 & E1 & A1 & B1 & C1).
  destruct (read_bits_value e b' c o n (fun _ => false) W' O HN L') as (v2 & c2 & o2 & E2 & A2 & B2 & C2).
  rewrite E1 in R. injection R as <- <- <-. rewrite E2.
  assert (c2 = c1) by lia. assert (o2 = o1) by lia. subst. f_equal. f_equal. f_equal.
  apply N.bits_inj. intros k. rewrite C1, C2. destruct (N.ltb_spec k n); auto. cbn [andb].
  destruct e; symmetry; apply A; lia.
Qed.

(** The position of a decoder determines cursor and bit offset *)
Lemma position_inj s d : boff s < 8 -> boff d < 8 -> position d = position s -> cur d = cur s /\ boff d = boff s.
Proof. unfold position. lia. Qed.

Lemma bit_field_encode {H} (host : H -> request -> H * reply) lm bc s h h' r :
  wf_bytes bc -> wf_bytes (buf s) -> opcode_at bc s = 0x20 \/ opcode_at bc s = 0x21 -> ip s + 4 <= lenN bc ->
  boff s < 8 -> md s = Enc ->
  let n := nthN bc (ip s + 3) in n <= 64 -> position s + n <= 8 * lenN (buf s) ->
  let rq := ask (key_at bc s) (opcode_at bc s) (cvar 8 0) (if opcode_at bc s =? 0x20 then HBitU n else HBitI n) in
  host h rq = (h', r) -> r_ok r = true ->
  exists s', interp host (step lm bc s) h = (SCont s', h', [(rq, r)]) /\
    wf_bytes (buf s') /\ lenN (buf s') = lenN (buf s) /\ position s' = position s + n /\ boff s' < 8 /\
    (forall k, k < n -> sbit (en s) (buf s') (position s + k) =
        N.testbit (answer 8 0 r) (match en s with LE => k | BE => n - 1 - k end)) /\
    (forall j, j < position s \/ position s + n <= j -> sbit (en s) (buf s') j = sbit (en s) (buf s) j) /\
    ip s' = ip s + 4 /\
    exists c o, read_bits (en s) (buf s') (cur s) (boff s) n = Ok (answer 8 0 r mod 2 ^ n, c, o) /\ 8 * c + o = position s + n.
Proof.
  intros WB WF HO HI B M n HN HL rq HH HR.
  pose proof (write_bits_spec (en s) (buf s) (cur s) (boff s) (got W8 0 r) n WF B) as WS. cbv zeta in WS.
  destruct (bits_round_trip (en s) (buf s) (cur s) (boff s) (got W8 0 r) n WF B HN HL)
    as (b & c & o & E & O & P & L & F1 & F2 & RD).
  rewrite E in WS. destruct WS as (W' & _).
  eexists. split; [eapply bit_enc; eauto|]. unfold at_bits. cbn [buf boff ip].
  rewrite answer_got in *. cbn [wbytes] in *. unfold position in *. cbn [cur boff].
  split; [auto|]. split; [auto|]. split; [auto|]. split; [auto|]. split; [exact F1|]. split; [exact F2|]. split; [auto|].
  exists c, o. auto.
Qed.

Lemma bit_u_round_trip {H} (host : H -> request -> H * reply) lm bc s h h' r s' t :
  wf_bytes bc -> wf_bytes (buf s) -> opcode_at bc s = 0x20 -> ip s + 4 <= lenN bc ->
  boff s < 8 -> md s = Enc ->
  let n := nthN bc (ip s + 3) in n <= 64 -> position s + n <= 8 * lenN (buf s) ->
  host h (ask (key_at bc s) 0x20 (cvar 8 0) (HBitU n)) = (h', r) -> r_ok r = true ->
  interp host (step lm bc s) h = (SCont s', h', t) ->
  forall (H2 : Type) (host2 : H2 -> request -> H2 * reply) d g g' r2, wf_bytes (buf d) -> md d = Dec -> boff d < 8 ->
  ip d = ip s -> en d = en s -> position d = position s -> position s + n <= 8 * lenN (buf d) ->
  (forall j, position s <= j < position s + n -> sbit (en s) (buf d) j = sbit (en s) (buf s') j) ->
  let rq := ask (key_at bc s) 0x20 (cvar 8 (answer 8 0 r mod 2 ^ n)) (HBitU n) in
  host2 g rq = (g', r2) -> r_ok r2 = true ->
  exists d', interp host2 (step lm bc d) g = (SCont d', g', [(rq, r2)]) /\ buf d' = buf d /\ position d' = position s + n.
Proof.
  intros WB WF HO HI B M n HN HL HH HR HS H2 host2 d g g' r2 WD MD BD ED EN EP HD A rq HG HR2.
  pose proof (bit_field_encode host lm bc s h h' r WB WF (or_introl HO) HI B M) as X. cbv zeta in X. rewrite HO in X.
  change (0x20 =? 0x20) with true in X. cbv iota in X. fold n in X.
  destruct (X HN HL HH HR) as (s2 & E & W2 & L2 & _ & _ & _ & _ & _ & c & o & RD & PC). clear X.
  rewrite HS in E. injection E as <- _. destruct (position_inj _ _ B BD EP) as [C1 C2].
  apply read_bits_same with (b' := buf d) in RD; auto; [|unfold position in *; lia|unfold position in *; intros; symmetry; now apply A].
  assert (EO : opcode_at bc d = 0x20) by (unfold opcode_at in *; now rewrite ED).
  assert (EK : key_at bc d = key_at bc s) by (unfold key_at, operand_at; now rewrite ED).
  eexists. split; [|split]; [| |].
  - pose proof (bit_u_dec host2 lm bc WB d g g' r2) as X. cbv zeta in X. rewrite EK, ED, EN, C1, C2 in X. fold n in X.
    eapply X; eauto.
  - reflexivity.
  - unfold position at 1. cbn [at_bits cur boff]. auto.
Qed.

Lemma bit_i_round_trip {H} (host : H -> request -> H * reply) lm bc s h h' r s' t z :
  wf_bytes bc -> wf_bytes (buf s) -> opcode_at bc s = 0x21 -> ip s + 4 <= lenN bc ->
  boff s < 8 -> md s = Enc ->
  let n := nthN bc (ip s + 3) in 1 <= n <= 64 -> position s + n <= 8 * lenN (buf s) ->
  host h (ask (key_at bc s) 0x21 (cvar 8 0) (HBitI n)) = (h', r) -> r_ok r = true -> r_val r = Some (ofZ 8 z) ->
  interp host (step lm bc s) h = (SCont s', h', t) ->
  exists v, number 8 true v = ((z + 2 ^ (Z.of_N n - 1)) mod 2 ^ Z.of_N n - 2 ^ (Z.of_N n - 1))%Z /\ v < 2 ^ 64 /\
  forall (H2 : Type) (host2 : H2 -> request -> H2 * reply) d g g' r2, wf_bytes (buf d) -> md d = Dec -> boff d < 8 ->
  ip d = ip s -> en d = en s -> position d = position s -> position s + n <= 8 * lenN (buf d) ->
  (forall j, position s <= j < position s + n -> sbit (en s) (buf d) j = sbit (en s) (buf s') j) ->
  let rq := ask (key_at bc s) 0x21 (cvar 8 v) (HBitI n) in
  host2 g rq = (g', r2) -> r_ok r2 = true ->
  exists d', interp host2 (step lm bc d) g = (SCont d', g', [(rq, r2)]) /\ buf d' = buf d /\ position d' = position s + n.
Proof.
  intros WB WF HO HI B M n HN HL HH HR HV HS.
  assert (AV : answer 8 0 r = ofZ 8 z).
  { unfold answer. rewrite HV. apply N.mod_small. apply ofZ_bound. }
  destruct (sign_extend_spec z n HN) as (v & SE & VB & SV).
  exists v. split.
  { rewrite <- SV. unfold number, toS. cbn [andb]. rewrite N.ltb_antisym. destruct (_ <=? v); reflexivity. }
  split; [auto|].
  intros H2 host2 d g g' r2 WD MD BD ED EN EP HD A rq HG HR2.
  pose proof (bit_field_encode host lm bc s h h' r WB WF (or_intror HO) HI B M) as X. cbv zeta in X. rewrite HO in X.
  change (0x21 =? 0x20) with false in X. cbv iota in X. fold n in X.
  destruct (X ltac:(lia) HL HH HR) as (s2 & E & W2 & L2 & _ & _ & _ & _ & _ & c & o & RD & PC). clear X.
  rewrite HS in E. injection E as <- _. destruct (position_inj _ _ B BD EP) as [C1 C2].
  apply read_bits_same with (b' := buf d) in RD; auto; [|lia|unfold position in *; lia|unfold position in *; intros; symmetry; now apply A].
  rewrite AV in RD.
  assert (EO : opcode_at bc d = 0x21) by (unfold opcode_at in *; now rewrite ED).
  assert (EK : key_at bc d = key_at bc s) by (unfold key_at, operand_at; now rewrite ED).
  eexists. split; [|split]; [| |].
  - pose proof (bit_i_dec host2 lm bc WB d g g' r2) as X. cbv zeta in X. rewrite EK, ED, EN, C1, C2 in X. fold n in X.
    eapply X; eauto.
  - reflexivity.
  - unfold position at 1. cbn [at_bits cur boff]. auto.
Qed.

(** ** Padding *)
Definition pad_width (bc : list N) (s : st) : N :=
  if opcode_at bc s =? 0x23 then nthN bc (ip s + 1) else (8 - boff s) mod 8.
Definition pad_bit (bc : list N) (s : st) : bool :=
  if opcode_at bc s =? 0x23 then false else negb (nthN bc (ip s + 1) =? 0).

Lemma fetch_byte bc p : wf_bytes bc -> p + 1 <= lenN bc -> fetch W1 bc p = Ok (nthN bc p, p + 1).
Proof.
  intros WB HP. rewrite fetch_ok. pose proof (fetchv1 bc p WB) as E. unfold fetchv in *.
  change (wbytes W1) with 1 in *. destruct (N.leb_spec (p + 1) (lenN bc)); [|lia]. cbn [fst] in E. now rewrite E.
Qed.
Lemma padding {H} (host : H -> request -> H * reply) lm bc s h :
  wf_bytes bc -> wf_bytes (buf s) -> opcode_at bc s = 0x23 \/ opcode_at bc s = 0x24 -> ip s + 2 <= lenN bc -> boff s < 8 ->
  pad_width bc s <= 64 -> position s + pad_width bc s <= 8 * lenN (buf s) ->
  exists s', interp host (step lm bc s) h = (SCont s', h, []) /\
    position s' = position s + pad_width bc s /\ boff s' < 8 /\ ip s' = ip s + 2 /\
    lenN (buf s') = lenN (buf s) /\
    (md s = Dec -> buf s' = buf s) /\
    (md s = Enc -> forall j, sbit (en s) (buf s') j =
       if (position s <=? j) && (j <? position s + pad_width bc s) then pad_bit bc s else sbit (en s) (buf s) j).
Proof.
  intros WB WF HO HI B HN HL. rewrite (step_at lm bc s (opcode_at bc s)) by (auto; lia).
  unfold pad_width, pad_bit in *.
  assert (PUT : forall v n, n <= 64 -> position s + n <= 8 * lenN (buf s) ->
    exists b c o, write_bits (en s) (buf s) (cur s) (boff s) v n = Ok (b, c, o) /\ lenN b = lenN (buf s) /\ o < 8 /\ 8 * c + o = position s + n /\
      forall j, sbit (en s) b j = if (position s <=? j) && (j <? position s + n) then wbit (en s) v n (j - position s) else sbit (en s) (buf s) j).
  { intros v n H1 H2. pose proof (write_bits_spec (en s) (buf s) (cur s) (boff s) v n WF B) as X. cbv zeta in X. unfold position in *.
    destruct (write_bits _ _ _ _ _ _) as [[[b c] o]|u]; [|lia]. destruct X as (X1 & X2 & X3 & X4 & X5).
    rewrite N.min_l in * by lia. exists b, c, o. auto 6. }
  destruct HO as [HO|HO]; rewrite HO in *; rewrite align_no by reflexivity; unfold exec_op;
    match goal with |- context [classify ?x] => let y := eval vm_compute in (classify x) in change (classify x) with y end; cbv iota.
  - change (0x23 =? 0x23) with true in *. cbv iota in *. unfold align_pad. cbn [ip set_ip].
    rewrite fetch_byte by (auto; lia). cbn [lift].
    set (n := nthN bc (ip s + 1)) in *. cbn [md set_ip]. destruct (md s) eqn:EM.
    + destruct (PUT 0 n HN HL) as (b & c & o & E1 & E2 & E3 & E4 & E5).
      unfold put_bits. cbn [en buf cur boff set_ip]. rewrite E1. cbn [lift interp].
      eexists. split; [reflexivity|]. unfold position in *. cbn [md buf ip cur boff en set_ip set_cur set_boff set_buf]. split; [lia|]. split; [auto|]. split; [lia|]. split; [auto|]. split; [discriminate|].
      intros _ j. rewrite E5. destruct (_ && _) eqn:EJ; [|auto]. unfold wbit. destruct (en s); [apply N.bits_0|apply N.bits_0].
    + cbn [interp]. eexists. split; [reflexivity|]. unfold position in *. cbn [md buf ip cur boff en set_ip set_cur set_boff set_buf]. split; [lia|]. split; [lia|]. split; [lia|]. split; [auto|]. split; [auto|discriminate].
  - change (0x24 =? 0x23) with false in *. cbv iota in *. unfold align_fill. cbn [ip set_ip].
    rewrite fetch_byte by (auto; lia). cbn [lift].
    set (f := nthN bc (ip s + 1)) in *. cbn [md boff set_ip].
    destruct (N.ltb_spec 0 (boff s)).
    + replace ((8 - boff s) mod 8) with (8 - boff s) in * by lia. destruct (md s) eqn:EM.
      * destruct (PUT (if f =? 0 then 0 else 2 ^ 64 - 1) (8 - boff s) HN HL) as (b & c & o & E1 & E2 & E3 & E4 & E5).
        unfold put_bits. cbn [en buf cur boff set_ip]. rewrite E1. cbn [lift interp].
        eexists. split; [reflexivity|]. unfold position in *. cbn [md buf ip cur boff en set_ip set_cur set_boff set_buf]. split; [lia|]. split; [auto|]. split; [lia|]. split; [auto|]. split; [discriminate|].
        intros _ j. rewrite E5. destruct (_ && _) eqn:EJ; [|auto].
        assert (HB : forall k, k < 64 -> N.testbit (if f =? 0 then 0 else 2 ^ 64 - 1) k = negb (f =? 0)).
        { intros k HK. destruct (f =? 0); [apply N.bits_0|]. change (2 ^ 64 - 1) with (N.ones 64). now apply N.ones_spec_low. }
        unfold wbit. destruct (en s); apply HB; lia.
      * unfold get_bits. cbn [en buf cur boff set_ip].
        pose proof (read_bits_spec (en s) (buf s) (cur s) (boff s) (8 - boff s) WF B) as X. cbv zeta in X. unfold position in *.
        destruct (read_bits _ _ _ _ _) as [[[v c] o]|u]; [|lia]. destruct X as (X1 & X2 & _). cbn [lift interp].
        rewrite N.min_l in * by lia. eexists. split; [reflexivity|]. cbn [md buf ip cur boff en set_ip set_cur set_boff set_buf]. split; [lia|]. split; [auto|]. split; [lia|]. split; [auto|]. split; [auto|discriminate].
    + assert (boff s = 0) by lia. replace ((8 - boff s) mod 8) with 0 in * by lia. cbn [interp].
      eexists. split; [reflexivity|]. unfold position in *. cbn [md buf ip cur boff en set_ip set_cur set_boff set_buf]. split; [lia|]. split; [auto|]. split; [lia|]. split; [auto|]. split; [auto|].
      intros _ j. destruct (_ && _) eqn:EJ; [lia|auto].
Qed.

Lemma byte_order {H} (host : H -> request -> H * reply) lm bc s h e :
  ip s < lenN bc -> opcode_at bc s = match e with LE => 0x01 | BE => 0x02 end ->
  interp host (step lm bc s) h = (SCont (set_en (set_ip s (ip s + 1)) e), h, []).
Proof.
  intros HI HO. rewrite (step_at lm bc s _ HI HO). rewrite align_no by (destruct e; reflexivity).
  destruct e; reflexivity.
Qed.
