(** C09 - C11, C15, C16: how numbers are laid out in the packet. *)
From Verif Require Import Base SpecBytes ModelWord ModelBits ModelFloat ModelTrans ModelVM SpecVM Samples
  LemWire LemField LemTrans.

(** ** C09 Integer wire format and round trip *)

(** Stores and loads of the helper functions: [wbytes w] is 1, 2, 4 or 8. *)
Theorem C09_store_layout : forall w e b p v, p + wbytes w <= lenN b ->
  exists b', write_word w e b p v = Ok b' /\ lenN b' = lenN b /\
    sub b' p (wbytes w) = bytes_of e (N.to_nat (wbytes w)) v /\
    forall i, i < p \/ p + wbytes w <= i -> nthN b' i = nthN b i.
Proof. exact store_word. Qed.
Print Assumptions C09_store_layout.

Theorem C09_load_value : forall w e b p, wf_bytes b -> p + wbytes w <= lenN b ->
  read_word w e b p = Ok (val_of e (sub b p (wbytes w))).
Proof. exact word_read_value. Qed.
Print Assumptions C09_load_value.

Theorem C09_round_trip : forall w e b p v, wf_bytes b -> p + wbytes w <= lenN b ->
  exists b', write_word w e b p v = Ok b' /\ read_word w e b' p = Ok (v mod 2 ^ (8 * wbytes w)).
Proof. exact word_round_trip. Qed.
Print Assumptions C09_round_trip.

Theorem C09_signed_round_trip : forall w e b p z, wf_bytes b -> p + wbytes w <= lenN b ->
  (- 2 ^ (8 * Z.of_N (wbytes w) - 1) <= z < 2 ^ (8 * Z.of_N (wbytes w) - 1))%Z ->
  exists b' x, write_word w e b p (ofZ 8 z) = Ok b' /\ read_word w e b' p = Ok x /\ toS (wbytes w) x = z.
Proof. exact signed_round_trip. Qed.
Print Assumptions C09_signed_round_trip.

(** An integer field, encoding: the host is asked once, for that key and type, and the value it gives
    is stored at the next byte boundary; no other byte changes. *)
Theorem C09_field_encode :
  forall (H : Type) (host : H -> request -> H * reply) lm bc s h h' r n,
  wf_bytes bc -> type_bytes (opcode_at bc s) = Some n -> ip s + 3 <= lenN bc ->
  boff s < 8 -> md s = Enc -> tr s = TNone -> byte_pos s + n <= lenN (buf s) ->
  let rq := ask (key_at bc s) (opcode_at bc s) (cvar n 0) (HField (opcode_at bc s) TNone) in
  host h rq = (h', r) -> r_ok r = true ->
  exists s', interp host (step lm bc s) h = (SCont s', h', [(rq, r)]) /\
    sub (buf s') (byte_pos s) n = bytes_of (en s) (N.to_nat n) (answer n 0 r) /\
    (forall i, i < byte_pos s \/ byte_pos s + n <= i -> nthN (buf s') i = nthN (buf s) i) /\
    lenN (buf s') = lenN (buf s) /\ position s' = 8 * (byte_pos s + n) /\ ip s' = ip s + 3.
Proof. intros H. exact int_field_encode. Qed.
Print Assumptions C09_field_encode.

(** Decoding: the host is told the value of the bytes at the next byte boundary. *)
Theorem C09_field_decode :
  forall (H : Type) (host : H -> request -> H * reply) lm bc s h h' r n,
  wf_bytes bc -> wf_bytes (buf s) -> type_bytes (opcode_at bc s) = Some n -> ip s + 3 <= lenN bc ->
  boff s < 8 -> md s = Dec -> tr s = TNone -> byte_pos s + n <= lenN (buf s) ->
  let rq := ask (key_at bc s) (opcode_at bc s) (cvar n (val_of (en s) (sub (buf s) (byte_pos s) n)))
                (HField (opcode_at bc s) TNone) in
  host h rq = (h', r) -> r_ok r = true ->
  exists s', interp host (step lm bc s) h = (SCont s', h', [(rq, r)]) /\
    buf s' = buf s /\ position s' = 8 * (byte_pos s + n) /\ ip s' = ip s + 3.
Proof. intros H. exact int_field_decode. Qed.
Print Assumptions C09_field_decode.

(** With too few bytes left a field that is not optional stops the run, in both modes. *)
Theorem C09_field_too_short :
  forall (H : Type) (host : H -> request -> H * reply) lm bc s h n,
  wf_bytes bc -> type_bytes (opcode_at bc s) = Some n -> ip s + 3 <= lenN bc ->
  boff s < 8 -> opt s = false -> lenN (buf s) < byte_pos s + n ->
  exists s', interp host (step lm bc s) h = (SHalt EOob s', h, []) /\ buf s' = buf s.
Proof. intros H. exact int_field_short. Qed.
Print Assumptions C09_field_too_short.

(** The bytes a field was encoded to carry the value the host gave, wherever they are read. *)
Theorem C09_field_round_trip :
  forall (H : Type) (host : H -> request -> H * reply) lm bc s h h' r n s' t,
  wf_bytes bc -> type_bytes (opcode_at bc s) = Some n -> ip s + 3 <= lenN bc ->
  boff s < 8 -> md s = Enc -> tr s = TNone -> byte_pos s + n <= lenN (buf s) ->
  host h (ask (key_at bc s) (opcode_at bc s) (cvar n 0) (HField (opcode_at bc s) TNone)) = (h', r) -> r_ok r = true ->
  interp host (step lm bc s) h = (SCont s', h', t) ->
  forall d, sub (buf d) (byte_pos s) n = sub (buf s') (byte_pos s) n -> en d = en s -> byte_pos d = byte_pos s ->
  val_of (en d) (sub (buf d) (byte_pos d) n) = answer n 0 r.
Proof. intros H. exact int_field_round_trip. Qed.
Print Assumptions C09_field_round_trip.

(** A big-endian 32-bit field after a 3-bit field *)
Example C09_nonvacuous :
  let bc := [0x16; 7; 0] in
  let s := mkst Enc [1; 2; 3; 4; 5; 6] 0 0 3 BE TNone false [] [] in
  type_bytes (opcode_at bc s) = Some 4 /\ ip s + 3 <= lenN bc /\ byte_pos s + 4 <= lenN (buf s) /\
  exists s', interp (always (ofZ 4 (-2))) (step lm0 bc s) tt =
    (SCont s', tt, [(ask 7 0x16 (cvar 4 0) (HField 0x16 TNone), say (ofZ 4 (-2)))]) /\
    buf s' = [1; 255; 255; 255; 254; 6].
Proof.
  repeat split; try (vm_compute; reflexivity); try (vm_compute; discriminate).
  eexists. split; vm_compute; reflexivity.
Qed.

(** The byte order these results mention is little endian in a fresh run and is set by the two byte-order
    instructions, which change nothing else. *)
Theorem C09_byte_order :
  (forall m data, en (init m data) = LE) /\
  forall (H : Type) (host : H -> request -> H * reply) lm bc s (h : H) e,
  ip s < lenN bc -> opcode_at bc s = match e with LE => 0x01 | BE => 0x02 end ->
  interp host (step lm bc s) h = (SCont (set_en (set_ip s (ip s + 1)) e), h, []).
Proof. split; [reflexivity|]. intros H. exact byte_order. Qed.
Print Assumptions C09_byte_order.
Example C09_byte_order_nonvacuous : exists s' t,
  run quiet lm0 [0x11; 1; 0; 0x02; 0x11; 1; 0; 0x01; 0x11; 1; 0] 9 (init Dec [1; 2; 1; 2; 1; 2]) tt = (Done EOk s', tt, t) /\
  map (fun ev => rq_pl (fst ev)) t = [PInt W2 0x201; PInt W2 0x102; PInt W2 0x201].
Proof. eexists. eexists. split; vm_compute; reflexivity. Qed.

(** ** C10 Bitfield round trip without disturbing neighbours *)
Theorem C10_bits_round_trip : forall e b c o v n, wf_bytes b -> o < 8 -> n <= 64 -> 8 * c + o + n <= 8 * lenN b ->
  exists b' c' o', write_bits e b c o v n = Ok (b', c', o') /\
    o' < 8 /\ 8 * c' + o' = 8 * c + o + n /\ lenN b' = lenN b /\
    (forall k, k < n -> sbit e b' (8 * c + o + k) = N.testbit v (match e with LE => k | BE => n - 1 - k end)) /\
    (forall j, j < 8 * c + o \/ 8 * c + o + n <= j -> sbit e b' j = sbit e b j) /\
    read_bits e b' c o n = Ok (v mod 2 ^ n, c', o').
Proof. exact bits_round_trip. Qed.
Print Assumptions C10_bits_round_trip.

(** The same for the bit-field instruction: whatever else the decoded packet contains, if its bits
    at the field's position are those the encoder wrote, the decoding host is told the low [n] bits of
    the value the encoding host supplied. *)
Theorem C10_field_round_trip :
  forall (H : Type) (host : H -> request -> H * reply) lm bc s h h' r s' t,
  wf_bytes bc -> wf_bytes (buf s) -> opcode_at bc s = 0x20 -> ip s + 4 <= lenN bc ->
  boff s < 8 -> md s = Enc ->
  let n := nthN bc (ip s + 3) in n <= 64 -> position s + n <= 8 * lenN (buf s) ->
  host h (ask (key_at bc s) 0x20 (cvar 8 0) (HBitU n)) = (h', r) -> r_ok r = true ->
  interp host (step lm bc s) h = (SCont s', h', t) ->
  forall (H2 : Type) (host2 : H2 -> request -> H2 * reply) d g g' r2, wf_bytes (buf d) -> md d = Dec -> boff d < 8 ->
  ip d = ip s -> en d = en s -> position d = position s -> position s + n <= 8 * lenN (buf d) ->
  (forall j, position s <= j < position s + n -> sbit (en s) (buf d) j = sbit (en s) (buf s') j) ->
  let rq := ask (key_at bc s) 0x20 (cvar 8 (answer 8 0 r mod 2 ^ n)) (HBitU n) in
  host2 g rq = (g', r2) -> r_ok r2 = true ->
  exists d', interp host2 (step lm bc d) g = (SCont d', g', [(rq, r2)]) /\ buf d' = buf d /\ position d' = position s + n.
Proof. intros H. exact bit_u_round_trip. Qed.
Print Assumptions C10_field_round_trip.

(** What the encoding step does to the rest of the packet (unsigned and signed bit fields) *)
Theorem C10_field_encode :
  forall (H : Type) (host : H -> request -> H * reply) lm bc s h h' r,
  wf_bytes bc -> wf_bytes (buf s) -> opcode_at bc s = 0x20 \/ opcode_at bc s = 0x21 -> ip s + 4 <= lenN bc ->
  boff s < 8 -> md s = Enc ->
  let n := nthN bc (ip s + 3) in n <= 64 -> position s + n <= 8 * lenN (buf s) ->
  let rq := ask (key_at bc s) (opcode_at bc s) (cvar 8 0) (if opcode_at bc s =? 0x20 then HBitU n else HBitI n) in
  host h rq = (h', r) -> r_ok r = true ->
  exists s', interp host (step lm bc s) h = (SCont s', h', [(rq, r)]) /\
    wf_bytes (buf s') /\ lenN (buf s') = lenN (buf s) /\ position s' = position s + n /\ boff s' < 8 /\
    (forall k, k < n -> sbit (en s) (buf s') (position s + k) =
        N.testbit (answer 8 0 r) (match en s with LE => k | BE => n - 1 - k end)) /\
    (forall j, j < position s \/ position s + n <= j -> sbit (en s) (buf s') j = sbit (en s) (buf s) j) /\
    ip s' = ip s + 4.
Proof.
  intros H host lm bc s h h' r WB WF HO HI B M n HN HL rq HH HR.
  destruct (bit_field_encode host lm bc s h h' r WB WF HO HI B M HN HL HH HR)
    as (s' & E & A1 & A2 & A3 & A4 & A5 & A6 & A7 & _). exists s'. auto 10.
Qed.
Print Assumptions C10_field_encode.

(** Padding: ALIGN_PAD (0x23) skips the number of bits it names, ALIGN_FILL (0x24) the bits up to the next
    byte boundary. Encoding writes zeros, or the fill bit of ALIGN_FILL; decoding leaves the packet alone. *)
Theorem C10_padding :
  forall (H : Type) (host : H -> request -> H * reply) lm bc s (h : H),
  wf_bytes bc -> wf_bytes (buf s) -> opcode_at bc s = 0x23 \/ opcode_at bc s = 0x24 -> ip s + 2 <= lenN bc -> boff s < 8 ->
  let n := if opcode_at bc s =? 0x23 then nthN bc (ip s + 1) else (8 - boff s) mod 8 in
  let fill := if opcode_at bc s =? 0x23 then false else negb (nthN bc (ip s + 1) =? 0) in
  n <= 64 -> position s + n <= 8 * lenN (buf s) ->
  exists s', interp host (step lm bc s) h = (SCont s', h, []) /\
    position s' = position s + n /\ boff s' < 8 /\ ip s' = ip s + 2 /\ lenN (buf s') = lenN (buf s) /\
    (md s = Dec -> buf s' = buf s) /\
    (md s = Enc -> forall j, sbit (en s) (buf s') j =
       if (position s <=? j) && (j <? position s + n) then fill else sbit (en s) (buf s) j).
Proof. intros H. exact padding. Qed.
Print Assumptions C10_padding.
Example C10_padding_nonvacuous :
  (exists s', interp quiet (step lm0 [0x24; 1] (mkst Enc [5; 0] 0 0 3 LE TNone false [] [])) tt = (SCont s', tt, []) /\ buf s' = [253; 0]) /\
  (exists s', interp quiet (step lm0 [0x23; 5] (mkst Enc [255; 255] 0 0 3 BE TNone false [] [])) tt = (SCont s', tt, []) /\ buf s' = [224; 255]).
Proof. split; eexists; (split; [vm_compute; reflexivity|reflexivity]). Qed.

(** An 11-bit field at bit 5, both byte orders *)
Example C10_nonvacuous : forall e,
  exists b', write_bits e [255; 255; 255] 0 5 0x555 11 = Ok (b', 2, 0) /\ read_bits e b' 0 5 11 = Ok (0x555, 2, 0) /\ nthN b' 2 = 255.
Proof. intros []; eexists; vm_compute; repeat split; reflexivity. Qed.

(** ** C11 Aligned bitfield fast path equals the bit-by-bit layout *)
Theorem C11_fast_write : forall e b c o v n w, wf_bytes b -> o < 8 -> fast_path b c o n = Some w ->
  write_bits e b c o v n = write_bits_loop e n v (N.to_nat n) 0 b c o.
Proof. exact fast_write_same. Qed.
Print Assumptions C11_fast_write.
Theorem C11_fast_read : forall e b c o n w, wf_bytes b -> o < 8 -> fast_path b c o n = Some w ->
  read_bits e b c o n = read_bits_loop e b (N.to_nat n) 0 0 c o.
Proof. exact fast_read_same. Qed.
Print Assumptions C11_fast_read.
Example C11_nonvacuous : fast_path [1; 2; 3; 4; 5] 1 0 32 = Some W4 /\ fast_path [1; 2; 3] 1 0 16 = Some W2.
Proof. vm_compute. auto. Qed.

(** ** C15 Signed bitfields keep their value *)

(** [v] is what the decoding host is told; as a number it is the low [n] bits of [z] sign-extended. *)
Theorem C15_signed_bitfield :
  forall (H : Type) (host : H -> request -> H * reply) lm bc s h h' r s' t z,
  wf_bytes bc -> wf_bytes (buf s) -> opcode_at bc s = 0x21 -> ip s + 4 <= lenN bc ->
  boff s < 8 -> md s = Enc ->
  let n := nthN bc (ip s + 3) in 1 <= n <= 64 -> position s + n <= 8 * lenN (buf s) ->
  host h (ask (key_at bc s) 0x21 (cvar 8 0) (HBitI n)) = (h', r) -> r_ok r = true -> r_val r = Some (ofZ 8 z) ->
  interp host (step lm bc s) h = (SCont s', h', t) ->
  exists v, number 8 true v = ((z + 2 ^ (Z.of_N n - 1)) mod 2 ^ Z.of_N n - 2 ^ (Z.of_N n - 1))%Z /\ v < 2 ^ 64 /\
  forall (H2 : Type) (host2 : H2 -> request -> H2 * reply) d g g' r2, wf_bytes (buf d) -> md d = Dec -> boff d < 8 ->
  ip d = ip s -> en d = en s -> position d = position s -> position s + n <= 8 * lenN (buf d) ->
  (forall j, position s <= j < position s + n -> sbit (en s) (buf d) j = sbit (en s) (buf s') j) ->
  let rq := ask (key_at bc s) 0x21 (cvar 8 v) (HBitI n) in
  host2 g rq = (g', r2) -> r_ok r2 = true ->
  exists d', interp host2 (step lm bc d) g = (SCont d', g', [(rq, r2)]) /\ buf d' = buf d /\ position d' = position s + n.
Proof. intros H. exact bit_i_round_trip. Qed.
Print Assumptions C15_signed_bitfield.
(** For a value in the range of the field that number is the value itself. *)
Theorem C15_in_range_unchanged : forall z n, 1 <= n <= 64 -> (- 2 ^ (Z.of_N n - 1) <= z < 2 ^ (Z.of_N n - 1))%Z ->
  ((z + 2 ^ (Z.of_N n - 1)) mod 2 ^ Z.of_N n - 2 ^ (Z.of_N n - 1))%Z = z.
Proof. exact sext_in_range. Qed.
Print Assumptions C15_in_range_unchanged.
Example C15_nonvacuous :
  let bc := [0x21; 0; 0; 5] in
  exists s', interp (always (ofZ 8 (-11))) (step lm0 bc (init Enc [0])) tt =
    (SCont s', tt, [(ask 0 0x21 (cvar 8 0) (HBitI 5), say (ofZ 8 (-11)))]) /\
  exists d', interp quiet (step lm0 bc (init Dec (buf s'))) tt =
    (SCont d', tt, [(ask 0 0x21 (cvar 8 (ofZ 8 (-11))) (HBitI 5), nod)]).
Proof. eexists. split; [vm_compute; reflexivity|]. eexists. vm_compute. reflexivity. Qed.

(** ** C16 Integer transforms are inverse *)

(** [relates t raw eng] says how stored number and engineering value are related, e.g. for [@mul(i)]
    that [eng = raw * i].  If the stored number fits the field and 64 bits, the decoding host is told exactly
    the engineering value the encoding host supplied. *)
Theorem C16_round_trip :
  forall (H : Type) (host : H -> request -> H * reply) lm bc s h h' r n eng raw s' t,
  wf_bytes bc -> type_bytes (opcode_at bc s) = Some n -> ip s + 3 <= lenN bc ->
  boff s < 8 -> md s = Enc -> byte_pos s + n <= lenN (buf s) ->
  relates (tr s) raw eng -> fits n (type_signed (opcode_at bc s)) raw -> fits 8 true raw -> fits 8 true eng ->
  host h (ask (key_at bc s) 0x17 (cvar 8 0) (HField (opcode_at bc s) (tr s))) = (h', r) -> r_ok r = true ->
  r_val r = Some (ofZ 8 eng) ->
  interp host (step lm bc s) h = (SCont s', h', t) ->
  forall (H2 : Type) (host2 : H2 -> request -> H2 * reply) d g g' r2,
  wf_bytes (buf d) -> md d = Dec -> boff d < 8 -> ip d = ip s -> en d = en s -> tr d = tr s ->
  byte_pos d = byte_pos s -> byte_pos d + n <= lenN (buf d) ->
  sub (buf d) (byte_pos d) n = sub (buf s') (byte_pos s) n ->
  let rq := ask (key_at bc s) 0x17 (cvar 8 (ofZ 8 eng)) (HField (opcode_at bc s) (tr s)) in
  host2 g rq = (g', r2) -> r_ok r2 = true ->
  exists d', interp host2 (step lm bc d) g = (SCont d', g', [(rq, r2)]).
Proof. intros H. exact trans_round_trip. Qed.
Print Assumptions C16_round_trip.

(** What is stored, for every engineering value for which the C arithmetic does not overflow ... *)
Theorem C16_encode :
  forall (H : Type) (host : H -> request -> H * reply) lm bc s h h' r n eng raw,
  wf_bytes bc -> type_bytes (opcode_at bc s) = Some n -> ip s + 3 <= lenN bc ->
  boff s < 8 -> md s = Enc -> int_transform (tr s) -> byte_pos s + n <= lenN (buf s) ->
  let rq := ask (key_at bc s) 0x17 (cvar 8 0) (HField (opcode_at bc s) (tr s)) in
  host h rq = (h', r) -> r_ok r = true -> r_val r = Some (ofZ 8 eng) -> fits 8 true eng ->
  raw = raw_number (tr s) eng -> fits 8 true raw ->
  exists s', interp host (step lm bc s) h = (SCont s', h', [(rq, r)]) /\
    sub (buf s') (byte_pos s) n = bytes_of (en s) (N.to_nat n) (ofZ n raw) /\
    (forall i, i < byte_pos s \/ byte_pos s + n <= i -> nthN (buf s') i = nthN (buf s) i) /\
    position s' = 8 * (byte_pos s + n) /\ tr s' = TNone.
Proof. intros H. exact trans_field_encode. Qed.
Print Assumptions C16_encode.
(** ... and these are exactly the values for which it does. *)
Theorem C16_overflow :
  forall (H : Type) (host : H -> request -> H * reply) lm bc s h h' r n eng,
  wf_bytes bc -> type_bytes (opcode_at bc s) = Some n -> ip s + 3 <= lenN bc ->
  boff s < 8 -> md s = Enc -> int_transform (tr s) -> byte_pos s + n <= lenN (buf s) ->
  let rq := ask (key_at bc s) 0x17 (cvar 8 0) (HField (opcode_at bc s) (tr s)) in
  host h rq = (h', r) -> r_ok r = true -> r_val r = Some (ofZ 8 eng) -> fits 8 true eng ->
  ~ fits 8 true (raw_number (tr s) eng) ->
  interp host (step lm bc s) h = (SUndef UOverflow, h', [(rq, r)]).
Proof. intros H. exact trans_field_overflow. Qed.
Print Assumptions C16_overflow.
(** What is reported for any stored number *)
Theorem C16_decode :
  forall (H : Type) (host : H -> request -> H * reply) lm bc d h h' r n raw eng,
  wf_bytes bc -> wf_bytes (buf d) -> type_bytes (opcode_at bc d) = Some n -> ip d + 3 <= lenN bc ->
  boff d < 8 -> md d = Dec -> int_transform (tr d) -> byte_pos d + n <= lenN (buf d) ->
  number n (type_signed (opcode_at bc d)) (val_of (en d) (sub (buf d) (byte_pos d) n)) = raw ->
  fits 8 true raw -> eng = eng_number (tr d) raw -> fits 8 true eng ->
  let rq := ask (key_at bc d) 0x17 (cvar 8 (ofZ 8 eng)) (HField (opcode_at bc d) (tr d)) in
  host h rq = (h', r) -> r_ok r = true ->
  exists d', interp host (step lm bc d) h = (SCont d', h', [(rq, r)]) /\
    buf d' = buf d /\ position d' = 8 * (byte_pos d + n) /\ tr d' = TNone.
Proof. intros H. exact trans_field_decode. Qed.
Print Assumptions C16_decode.
(** The transform in force is the one given by the preceding TRANS_* instruction. *)
Theorem C16_setup :
  forall (H : Type) (host : H -> request -> H * reply) lm bc s h, wf_bytes bc -> ip s + 9 <= lenN bc ->
  let i := number 8 true (operand_at bc s 1 8) in
  forall t, (opcode_at bc s = 0x45 /\ t = TAdd i) \/ (opcode_at bc s = 0x46 /\ t = TSub i) \/
            (opcode_at bc s = 0x47 /\ t = TMul i) \/ (opcode_at bc s = 0x48 /\ t = TDiv i) ->
  interp host (step lm bc s) h = (SCont (set_tr (set_ip s (ip s + 9)) t), h, []).
Proof. intros H. exact trans_setup. Qed.
Print Assumptions C16_setup.
(** [@mul(-3) int16], engineering value 300: stored -100, reported 300 *)
Example C16_nonvacuous :
  let s := mkst Enc [0; 0] 0 0 0 LE (TMul (-3)) false [] [] in
  relates (tr s) (-100) 300 /\ fits 2 true (-100) /\
  exists s', interp (always (ofZ 8 300)) (step lm0 [0x15; 0; 0] s) tt =
    (SCont s', tt, [(ask 0 0x17 (cvar 8 0) (HField 0x15 (TMul (-3))), say (ofZ 8 300))]) /\ buf s' = [156; 255].
Proof.
  split; [split; [discriminate|reflexivity]|]. split; [split; reflexivity || discriminate|].
  eexists. split; vm_compute; reflexivity.
Qed.
