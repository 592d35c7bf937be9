(** C21, C22, C23: checksums. *)
From Verif Require Import Base SpecBytes LemBase ModelCrc ModelFloat ModelTrans ModelVM SpecVM SpecCrc Samples LemCrc LemSeal.

(** ** C22 The table-driven CRC-32 *)

(** The interpreter's computation is the bit-serial definition, for every width, polynomial, initial value, final xor
    and reflection; only for the usual CRC-32 parameters (table path) the initial register is reversed. *)
Theorem C22_bit_serial :
  forall data poly init xorout flags (w32 : bool), let w := if w32 then 32 else 16 in
  wf_bytes data -> poly < 2 ^ w -> init < 2 ^ w -> xorout < 2 ^ w ->
  let refin := N.testbit flags 0 in let refout := N.testbit flags 1 in
  calc_crc data poly init xorout flags w32 = crc_spec w poly (crc_start w poly refin refout init) xorout refin refout data.
Proof.
  intros data poly init xorout flags w32. cbv zeta. destruct w32; [exact (calc_spec data poly init xorout flags true)|exact (calc_spec data poly init xorout flags false)].
Qed.
Print Assumptions C22_bit_serial.
(** With the standard initial value the table path and the bitwise path agree on every message ... *)
Theorem C22_table_equals_bitwise :
  forall data xorout, wf_bytes data -> xorout < 2 ^ 32 ->
  calc_crc data 0x04C11DB7 0xFFFFFFFF xorout 3 true = calc_crc_generic data 0x04C11DB7 0xFFFFFFFF xorout 3 true /\
  calc_crc data 0x04C11DB7 0xFFFFFFFF xorout 3 true = crc_spec 32 0x04C11DB7 0xFFFFFFFF xorout true true data.
Proof.
  intros data xorout WD X. split.
  - now apply agree_iff.
  - now rewrite calc_spec.
Qed.
Print Assumptions C22_table_equals_bitwise.
(** ... and for any other initial value they agree exactly when it is its own bit reversal. *)
Theorem C22_custom_init :
  forall data init xorout flags, wf_bytes data -> init < 2 ^ 32 -> xorout < 2 ^ 32 ->
  N.testbit flags 0 = true -> N.testbit flags 1 = true ->
  (calc_crc data 0x04C11DB7 init xorout flags true = calc_crc_generic data 0x04C11DB7 init xorout flags true <-> reversed 32 init = init).
Proof. exact agree_iff. Qed.
Print Assumptions C22_custom_init.
(** The check value of CRC-32 ("123456789"), by table and bit by bit; and of CRC-16/CCITT-FALSE and CRC-16/ARC *)
Example C22_nonvacuous :
  let m := [0x31; 0x32; 0x33; 0x34; 0x35; 0x36; 0x37; 0x38; 0x39] in
  calc_crc m 0x04C11DB7 0xFFFFFFFF 0xFFFFFFFF 3 true = 0xCBF43926 /\
  calc_crc_generic m 0x04C11DB7 0xFFFFFFFF 0xFFFFFFFF 3 true = 0xCBF43926 /\
  crc_spec 32 0x04C11DB7 0xFFFFFFFF 0xFFFFFFFF true true m = 0xCBF43926 /\
  crc_spec 16 0x1021 0xFFFF 0 false false m = 0x29B1 /\ crc_spec 16 0x8005 0 0 true true m = 0xBB3D /\
  reversed 32 1 <> 1 /\ calc_crc m 0x04C11DB7 1 0 3 true <> calc_crc_generic m 0x04C11DB7 1 0 3 true.
Proof. vm_compute. repeat split; discriminate. Qed.

(** ** C21 Error detection *)

(** Two byte strings of the same length that differ, all differing bits (in the order in which they enter the register)
    inside a window as wide as the checksum, have different checksums. *)
Theorem C21_burst :
  forall bc s n a b k, wf_bytes bc -> crc_size (opcode_at bc s) = Some n -> ip s + 2 + 3 * n <= lenN bc ->
  N.odd (operand_at bc s 1 n) = true -> wf_bytes a -> wf_bytes b -> lenN a = lenN b -> a <> b ->
  let order := N.testbit (operand_at bc s (1 + 3 * n) 1) 0 in
  (forall i, i < 8 * lenN a -> message_bit order a i <> message_bit order b i -> k <= i < k + 8 * n) ->
  field_crc bc s n a <> field_crc bc s n b.
Proof. exact field_detects. Qed.
Print Assumptions C21_burst.
(** A single flipped bit is the window of width 1 *)
Theorem C21_single_bit :
  forall (bc : list N) s n a b k, wf_bytes bc -> crc_size (opcode_at bc s) = Some n -> ip s + 2 + 3 * n <= lenN bc ->
  N.odd (operand_at bc s 1 n) = true -> wf_bytes a -> wf_bytes b -> lenN a = lenN b -> a <> b ->
  let order := N.testbit (operand_at bc s (1 + 3 * n) 1) 0 in
  (forall i, i <> k -> message_bit order a i = message_bit order b i) ->
  field_crc bc s n a <> field_crc bc s n b.
Proof.
  intros bc s n a b k WB HO HI OD WA WB' LE NE order E. apply field_detects with (k := k); auto.
  intros i _ D. destruct (N.eq_dec i k) as [->|NE2]; [|exfalso; exact (D (E i NE2))].
  unfold crc_size in HO. split; [reflexivity|].
  assert (0 < n). { repeat match type of HO with match ?x with _ => _ end = Some _ => destruct x; try discriminate HO end; injection HO as <-; reflexivity. }
  lia.
Qed.
Print Assumptions C21_single_bit.
(** A packet accepted by the checksum instruction is refused after such an error in the protected bytes. *)
Theorem C21_corrupted_packet_refused :
  forall (H : Type) (host : H -> request -> H * reply) lm bc s h n s' h1 t k b, wf_bytes bc ->
  crc_size (opcode_at bc s) = Some n -> ip s + 2 + 3 * n <= lenN bc -> N.odd (operand_at bc s 1 n) = true ->
  boff s < 8 -> wf_bytes (buf s) -> md s = Dec -> byte_pos s + n <= lenN (buf s) ->
  interp host (step lm bc s) h = (SCont s', h1, t) ->
  wf_bytes b -> lenN b = byte_pos s -> b <> sub (buf s) 0 (byte_pos s) ->
  let order := N.testbit (operand_at bc s (1 + 3 * n) 1) 0 in
  (forall i, i < 8 * byte_pos s -> message_bit order (sub (buf s) 0 (byte_pos s)) i <> message_bit order b i -> k <= i < k + 8 * n) ->
  interp host (step lm bc (set_buf s (put (buf s) 0 b))) h = (SHalt ECrc (set_buf (aligned s (2 + 3 * n)) (put (buf s) 0 b)), h, []).
Proof. intros H. exact corrupted. Qed.
Print Assumptions C21_corrupted_packet_refused.
(** CRC-16/CCITT over three bytes; a burst of 12 bits across two bytes *)
Definition sealed : list N := [0x10; 0; 0; 0x11; 1; 0; 0x44; 0x21; 0x10; 0xFF; 0xFF; 0; 0; 0].
Example C21_nonvacuous :
  let at_crc data := mkst Dec data 6 3 0 LE TNone false [] [] in
  crc_size (opcode_at sealed (at_crc [])) = Some 2 /\ N.odd (operand_at sealed (at_crc []) 1 2) = true /\
  (exists s, interp quiet (step lm0 sealed (at_crc [1; 2; 3; 0xAD; 0xAD])) tt = (SCont s, tt, [])) /\
  (exists s, interp quiet (step lm0 sealed (at_crc [9; 0xF2; 3; 0xAD; 0xAD])) tt = (SHalt ECrc s, tt, [])) /\
  (forall i, i < 24 -> message_bit false [1; 2; 3] i <> message_bit false [9; 0xF2; 3] i -> 4 <= i < 4 + 16).
Proof.
  split; [reflexivity|]. split; [reflexivity|]. split; [eexists; vm_compute; reflexivity|]. split; [eexists; vm_compute; reflexivity|].
  intros i Hi NE.
  assert (A : forallb (fun i => Bool.eqb (message_bit false [1; 2; 3] i) (message_bit false [9; 0xF2; 3] i) || ((4 <=? i) && (i <? 20)))
    (map N.of_nat (seq 0 24)) = true) by (vm_compute; reflexivity).
  rewrite forallb_forall in A. assert (IN : In i (map N.of_nat (seq 0 24))).
  { apply in_map_iff. exists (N.to_nat i). split; [lia|]. apply in_seq. lia. }
  specialize (A i IN). cbv beta in A. apply orb_prop in A. destruct A as [A|A]; [apply eqb_prop in A; contradiction|]. lia.
Qed.

(** ** C23 Sealed packets *)

(** Encoding appends the checksum of everything before it, in the byte order in force ... *)
Theorem C23_encode :
  forall (H : Type) (host : H -> request -> H * reply) lm bc, wf_bytes bc -> forall s h n,
  crc_size (opcode_at bc s) = Some n -> ip s + 2 + 3 * n <= lenN bc -> boff s < 8 -> wf_bytes (buf s) ->
  md s = Enc -> byte_pos s + n <= lenN (buf s) ->
  let c := field_crc bc s n (sub (buf s) 0 (byte_pos s)) in
  interp host (step lm bc s) h =
    (SCont (set_cur (set_buf (aligned s (2 + 3 * n)) (put (buf s) (byte_pos s) (bytes_of (en s) (N.to_nat n) c))) (byte_pos s + n)), h, []).
Proof. intros H. exact crc_enc. Qed.
Print Assumptions C23_encode.
(** ... decoding goes on exactly if the stored number is the checksum of everything before it ... *)
Theorem C23_decode :
  forall (H : Type) (host : H -> request -> H * reply) lm bc, wf_bytes bc -> forall s h n,
  crc_size (opcode_at bc s) = Some n -> ip s + 2 + 3 * n <= lenN bc -> boff s < 8 -> wf_bytes (buf s) ->
  md s = Dec -> byte_pos s + n <= lenN (buf s) ->
  let c := field_crc bc s n (sub (buf s) 0 (byte_pos s)) in
  let s1 := aligned s (2 + 3 * n) in
  interp host (step lm bc s) h =
    (if val_of (en s) (sub (buf s) (byte_pos s) n) =? c then SCont (set_cur s1 (byte_pos s + n)) else SHalt ECrc s1, h, []).
Proof. intros H. exact crc_dec. Qed.
Print Assumptions C23_decode.
(** ... so a packet with the bytes the encoder produced up to and including the checksum passes. *)
Theorem C23_sealed_packet_verifies :
  forall (H : Type) (host : H -> request -> H * reply) lm bc s h n s' h1 t, wf_bytes bc ->
  crc_size (opcode_at bc s) = Some n -> ip s + 2 + 3 * n <= lenN bc -> boff s < 8 -> wf_bytes (buf s) -> md s = Enc ->
  byte_pos s + n <= lenN (buf s) -> interp host (step lm bc s) h = (SCont s', h1, t) ->
  forall (H2 : Type) (host2 : H2 -> request -> H2 * reply) d g,
  md d = Dec -> boff d < 8 -> ip d = ip s -> en d = en s -> byte_pos d = byte_pos s -> wf_bytes (buf d) ->
  byte_pos s + n <= lenN (buf d) -> sub (buf d) 0 (byte_pos s + n) = sub (buf s') 0 (byte_pos s + n) ->
  interp host2 (step lm bc d) g = (SCont (set_cur (aligned d (2 + 3 * n)) (byte_pos s + n)), g, []) /\ position s' = 8 * (byte_pos s + n).
Proof. intros H. exact crc_round_trip. Qed.
Print Assumptions C23_sealed_packet_verifies.
(** A whole run: encode, decode, and decode with one checksum bit flipped *)
Example C23_nonvacuous : exists s d d',
  fst (fst (run script lm0 sealed 9 (init Enc (repeat 0 5)) [say 1; say 0x0302])) = Done EOk s /\
  buf s = [1; 2; 3; 0xAD; 0xAD] /\
  fst (fst (run quiet lm0 sealed 9 (init Dec (buf s)) tt)) = Done EOk d /\
  fst (fst (run quiet lm0 sealed 9 (init Dec [1; 2; 3; 0xAD; 0xAC]) tt)) = Done ECrc d'.
Proof.
  do 3 eexists. split; [vm_compute; reflexivity|]. split; [vm_compute; reflexivity|]. split; [vm_compute; reflexivity|]. vm_compute. reflexivity.
Qed.
