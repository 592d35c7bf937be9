(** C17 - C20, C27, C28, C48: validation, constants, optional fields, dispatch, computed fields. *)
From Verif Require Import Base SpecBytes ModelWord ModelFloat ModelTrans ModelVM SpecVM Samples LemCheck.

(** ** C17 Range checks accept exactly the declared interval *)

(** An integer field followed by a range check of its type, in either mode: the first step goes through,
    the second continues if and only if min <= value <= max in the order of the field's type, where the value is
    what the host supplied (encoding) or what the packet contains (decoding). *)
Theorem C17_field_then_range :
  forall (H : Type) (host : H -> request -> H * reply) lm bc s h h' r n,
  wf_bytes bc -> wf_bytes (buf s) -> type_bytes (opcode_at bc s) = Some n ->
  boff s < 8 -> tr s = TNone -> byte_pos s + n <= lenN (buf s) ->
  nthN bc (ip s + 3) = 0x42 -> nthN bc (ip s + 4) = opcode_at bc s -> ip s + 5 + 2 * n <= lenN bc ->
  host h (field_request bc s n) = (h', r) -> r_ok r = true ->
  let num x := number n (type_signed (opcode_at bc s)) x in
  exists s1 s2, interp host (step lm bc s) h = (SCont s1, h', [(field_request bc s n, r)]) /\
    interp host (step lm bc s1) h' =
      (if ((num (operand_at bc s 5 n) <=? num (processed s n r)) && (num (processed s n r) <=? num (operand_at bc s (5 + n) n)))%Z
       then SCont s2 else SHalt EValidation s2, h', []) /\
    ip s2 = ip s + 5 + 2 * n /\ buf s2 = buf s1 /\ position s2 = position s1.
Proof. intros H. exact field_then_range. Qed.
Print Assumptions C17_field_then_range.

(** The check on its own: it looks at the [n] bytes just before the position, whatever put them there. *)
Theorem C17_range_check :
  forall (H : Type) (host : H -> request -> H * reply) lm bc, wf_bytes bc -> forall s h n,
  opcode_at bc s = 0x42 -> wf_bytes (buf s) ->
  let ty := nthN bc (ip s + 1) in type_bytes ty = Some n ->
  ip s + 2 + 2 * n <= lenN bc -> n <= cur s <= lenN (buf s) ->
  let num x := number n (type_signed ty) x in
  let v := num (val_of (en s) (sub (buf s) (cur s - n) n)) in
  let mn := num (operand_at bc s 2 n) in let mx := num (operand_at bc s (2 + n) n) in
  let s' := set_ip s (ip s + 2 + 2 * n) in
  interp host (step lm bc s) h = (if ((mn <=? v) && (v <=? mx))%Z then SCont s' else SHalt EValidation s', h, []).
Proof. intros H. exact range_int. Qed.
Print Assumptions C17_range_check.

(** For floats: rejected if and only if below min or above max in the IEEE order (so NaN is accepted). *)
Theorem C17_range_check_float :
  forall (H : Type) (host : H -> request -> H * reply) lm bc, wf_bytes bc -> forall s h f n,
  opcode_at bc s = 0x42 -> wf_bytes (buf s) ->
  (nthN bc (ip s + 1) = 0x18 /\ f = F32 /\ n = 4) \/ (nthN bc (ip s + 1) = 0x19 /\ f = F64 /\ n = 8) ->
  ip s + 2 + 2 * n <= lenN bc -> n <= cur s <= lenN (buf s) ->
  let v := val_of (en s) (sub (buf s) (cur s - n) n) in
  let mn := operand_at bc s 2 n in let mx := operand_at bc s (2 + n) n in
  let s' := set_ip s (ip s + 2 + 2 * n) in
  interp host (step lm bc s) h = (if flt f v mn || flt f mx v then SHalt EValidation s' else SCont s', h, []).
Proof. intros H. exact range_float. Qed.
Print Assumptions C17_range_check_float.

(** int8 in [-5, 5], big endian, decoding: -6 is refused, -5 accepted *)
Definition range_prog : list N := [0x14; 1; 0; 0x42; 0x14; 251; 5].
Example C17_nonvacuous :
  type_bytes (opcode_at range_prog (init Dec [250])) = Some 1 /\
  (exists s', fst (fst (run quiet lm0 range_prog 5 (init Dec [250]) tt)) = Done EValidation s') /\
  (exists s', fst (fst (run quiet lm0 range_prog 5 (init Dec [251]) tt)) = Done EOk s') /\
  (exists s', fst (fst (run (always 5) lm0 range_prog 5 (init Enc [0]) tt)) = Done EOk s') /\
  (exists s', fst (fst (run (always 6) lm0 range_prog 5 (init Enc [0]) tt)) = Done EValidation s').
Proof. compute_it. Qed.

(** ** C18 Enum checks accept exactly the declared members *)
Theorem C18_field_then_enum :
  forall (H : Type) (host : H -> request -> H * reply) lm bc s h h' r n,
  wf_bytes bc -> wf_bytes (buf s) -> type_bytes (opcode_at bc s) = Some n ->
  boff s < 8 -> tr s = TNone -> byte_pos s + n <= lenN (buf s) ->
  nthN bc (ip s + 3) = 0x4B -> nthN bc (ip s + 4) = opcode_at bc s ->
  let count := operand_at bc s 5 2 in ip s + 7 + count * n <= lenN bc ->
  host h (field_request bc s n) = (h', r) -> r_ok r = true ->
  let members := all_listed bc (ip s + 7) n count in
  exists s1 s2, interp host (step lm bc s) h = (SCont s1, h', [(field_request bc s n, r)]) /\
    buf s2 = buf s1 /\ position s2 = position s1 /\
    (In (processed s n r) members -> ip s2 = ip s + 7 + count * n /\ interp host (step lm bc s1) h' = (SCont s2, h', [])) /\
    (~ In (processed s n r) members -> interp host (step lm bc s1) h' = (SHalt EValidation s2, h', [])).
Proof. intros H. exact field_then_enum. Qed.
Print Assumptions C18_field_then_enum.
(** u16 enum {1, 300, 7} *)
Definition enum_prog : list N := [0x11; 1; 0; 0x4B; 0x11; 3; 0; 1; 0; 44; 1; 7; 0].
Example C18_nonvacuous :
  all_listed enum_prog 7 2 (operand_at enum_prog (init Dec [44; 1]) 5 2) = [1; 300; 7] /\
  (exists s', fst (fst (run quiet lm0 enum_prog 5 (init Dec [44; 1]) tt)) = Done EOk s') /\
  (exists s', fst (fst (run quiet lm0 enum_prog 5 (init Dec [45; 1]) tt)) = Done EValidation s').
Proof. compute_it. Qed.

(** ** C19 Constant fields *)
Theorem C19_encode :
  forall (H : Type) (host : H -> request -> H * reply) lm bc s h n,
  wf_bytes bc -> opcode_at bc s = 0x40 -> boff s < 8 -> md s = Enc ->
  type_bytes (nthN bc (ip s + 3)) = Some n -> ip s + 4 + n <= lenN bc -> byte_pos s + n <= lenN (buf s) ->
  exists s', interp host (step lm bc s) h = (SCont s', h, []) /\
    sub (buf s') (byte_pos s) n = bytes_of (en s) (N.to_nat n) (operand_at bc s 4 n) /\
    (forall i, i < byte_pos s \/ byte_pos s + n <= i -> nthN (buf s') i = nthN (buf s) i) /\
    lenN (buf s') = lenN (buf s) /\ position s' = 8 * (byte_pos s + n) /\ ip s' = ip s + 4 + n.
Proof. intros H. exact const_field_encode. Qed.
Print Assumptions C19_encode.
(** Decoding: goes on exactly if the bytes are those of the constant, and then the host is told the constant. *)
Theorem C19_decode :
  forall (H : Type) (host : H -> request -> H * reply) lm bc s h n,
  wf_bytes bc -> wf_bytes (buf s) -> opcode_at bc s = 0x40 -> boff s < 8 -> md s = Dec ->
  type_bytes (nthN bc (ip s + 3)) = Some n -> ip s + 4 + n <= lenN bc -> byte_pos s + n <= lenN (buf s) ->
  let c := operand_at bc s 4 n in
  let rq := ask (key_at bc s) (nthN bc (ip s + 3)) (cvar n c) HConst in
  (sub (buf s) (byte_pos s) n <> bytes_of (en s) (N.to_nat n) c ->
     exists s', interp host (step lm bc s) h = (SHalt EValidation s', h, [])) /\
  (sub (buf s) (byte_pos s) n = bytes_of (en s) (N.to_nat n) c -> forall h' r, host h rq = (h', r) -> r_ok r = true ->
     exists s', interp host (step lm bc s) h = (SCont s', h', [(rq, r)]) /\ buf s' = buf s /\
       position s' = 8 * (byte_pos s + n) /\ ip s' = ip s + 4 + n).
Proof. intros H. exact const_field_decode. Qed.
Print Assumptions C19_decode.
(** The keyless form (CONST_WRITE, unsigned types) writes the constant too, in both modes. *)
Theorem C19_const_write :
  forall (H : Type) (host : H -> request -> H * reply) lm bc s h n,
  wf_bytes bc -> opcode_at bc s = 0x41 -> boff s < 8 ->
  type_bytes (nthN bc (ip s + 1)) = Some n -> type_signed (nthN bc (ip s + 1)) = false ->
  ip s + 2 + n <= lenN bc -> byte_pos s + n <= lenN (buf s) ->
  exists s', interp host (step lm bc s) h = (SCont s', h, []) /\
    sub (buf s') (byte_pos s) n = bytes_of (en s) (N.to_nat n) (operand_at bc s 2 n) /\
    (forall i, i < byte_pos s \/ byte_pos s + n <= i -> nthN (buf s') i = nthN (buf s) i) /\
    lenN (buf s') = lenN (buf s) /\ position s' = 8 * (byte_pos s + n) /\ ip s' = ip s + 2 + n.
Proof. intros H. exact const_write_encode. Qed.
Print Assumptions C19_const_write.
Definition const_prog : list N := [0x02; 0x40; 9; 0; 0x12; 0xEF; 0xBE; 0xAD; 0xDE].
Example C19_nonvacuous :
  (exists s', fst (fst (run quiet lm0 const_prog 5 (init Enc (repeat 0 4)) tt)) = Done EOk s' /\ buf s' = [0xDE; 0xAD; 0xBE; 0xEF]) /\
  (exists s', run quiet lm0 const_prog 5 (init Dec [0xDE; 0xAD; 0xBE; 0xEF]) tt =
      (Done EOk s', tt, [(ask 9 0x12 (cvar 4 0xDEADBEEF) HConst, nod)])) /\
  (exists s', run quiet lm0 const_prog 5 (init Dec [0xDE; 0xAD; 0xBE; 0xEE]) tt = (Done EValidation s', tt, [])).
Proof. compute_it. Qed.

(** ** C20 Booleans are 0 or 1 *)
Theorem C20_encode :
  forall (H : Type) (host : H -> request -> H * reply) lm bc, wf_bytes bc -> forall s h h' r,
  opcode_at bc s = 0x1A -> boff s < 8 -> md s = Enc -> ip s + 3 <= lenN bc -> byte_pos s + 1 <= lenN (buf s) ->
  let rq := ask (key_at bc s) 0x1A (cvar 1 0) (HField 0x1A TNone) in
  let s1 := set_ip (set_boff (set_cur s (byte_pos s)) 0) (ip s + 3) in
  host h rq = (h', r) -> r_ok r = true ->
  interp host (step lm bc s) h =
    (if answer 1 0 r <=? 1 then SCont (set_opt (set_cur (set_buf s1 (put (buf s) (byte_pos s) [answer 1 0 r])) (byte_pos s + 1)) false)
     else SHalt EValidation s1, h', [(rq, r)]).
Proof. intros H. exact bool_enc. Qed.
Print Assumptions C20_encode.
Theorem C20_decode :
  forall (H : Type) (host : H -> request -> H * reply) lm bc, wf_bytes bc -> forall s h,
  opcode_at bc s = 0x1A -> boff s < 8 -> md s = Dec -> ip s + 3 <= lenN bc -> byte_pos s + 1 <= lenN (buf s) ->
  let v := nthN (buf s) (byte_pos s) in
  let s1 := set_ip (set_boff (set_cur s (byte_pos s)) 0) (ip s + 3) in
  (1 < v -> interp host (step lm bc s) h = (SHalt EValidation s1, h, [])) /\
  (v <= 1 -> forall h' r, let rq := ask (key_at bc s) 0x1A (cvar 1 v) (HField 0x1A TNone) in
    host h rq = (h', r) -> interp host (step lm bc s) h =
    (if r_ok r then SCont (set_opt (set_cur s1 (byte_pos s + 1)) false) else SHalt ECallback s1, h', [(rq, r)])).
Proof. intros H. exact bool_dec. Qed.
Print Assumptions C20_decode.
Example C20_nonvacuous :
  (exists s', run (always 2) lm0 [0x1A; 0; 0] 5 (init Enc [77]) tt =
     (Done EValidation s', tt, [(ask 0 0x1A (cvar 1 0) (HField 0x1A TNone), say 2)]) /\ buf s' = [77]) /\
  (exists s', run quiet lm0 [0x1A; 0; 0] 5 (init Dec [2]) tt = (Done EValidation s', tt, [])) /\
  (exists s', run quiet lm0 [0x1A; 0; 0] 5 (init Dec [1]) tt = (Done EOk s', tt, [(ask 0 0x1A (cvar 1 1) (HField 0x1A TNone), nod)])).
Proof. compute_it. Qed.

(** ** C27 Missing optional trailing fields decode to zero *)

(** Full statement: with too few bytes left an optional scalar is reported as 0, nothing is consumed, and the
    run continues as if the validation and transform that belong to the field were absent.  The theorem covers
    the field instruction itself; what is missing, because it is false (below), is that the instructions the
    compiler attaches to the field, such as a range check after it, are skipped too. *)
Theorem C27_missing_is_zero_partial :
  forall (H : Type) (host : H -> request -> H * reply) lm bc, wf_bytes bc -> forall s h h' r n,
  scalar_bytes (opcode_at bc s) = Some n -> boff s < 8 -> ip s + 3 <= lenN bc ->
  opt s = true -> lenN (buf s) < byte_pos s + n ->
  let rq := ask (key_at bc s) (opcode_at bc s) (cvar n 0) (HMissing (opcode_at bc s)) in
  host h rq = (h', r) ->
  let s1 := set_opt (set_ip (set_boff (set_cur s (byte_pos s)) 0) (ip s + 3)) false in
  interp host (step lm bc s) h = (if r_ok r then SCont s1 else SHalt ECallback s1, h', [(rq, r)]).
Proof. intros H. exact missing_optional. Qed.
Print Assumptions C27_missing_is_zero_partial.
(** Two optional fields missing after a u8: both reported as 0, run ends well *)
Example C27_nonvacuous :
  exists s', run quiet lm0 [0x10; 0; 0; 0x4A; 0x12; 1; 0; 0x4A; 0x19; 2; 0] 9 (init Dec [5; 6]) tt =
    (Done EOk s', tt, [(ask 0 0x10 (cvar 1 5) (HField 0x10 TNone), nod); (ask 1 0x12 (cvar 4 0) (HMissing 0x12), nod);
                       (ask 2 0x19 (cvar 8 0) (HMissing 0x19), nod)]) /\ cur s' = 1.
Proof. eexists. split; vm_compute; reflexivity. Qed.
(** [uint8 a; @optional @range(10,20) uint8 b;] on the packet [5]: the check looks at [a]. *)
Theorem C27_refuted_range : exists s',
  run quiet lm0 [0x10; 0; 0; 0x4A; 0x10; 1; 0; 0x42; 0x10; 10; 20] 9 (init Dec [5]) tt =
  (Done EValidation s', tt, [(ask 0 0x10 (cvar 1 5) (HField 0x10 TNone), nod); (ask 1 0x10 (cvar 1 0) (HMissing 0x10), nod)]).
Proof. eexists. vm_compute. reflexivity. Qed.
Print Assumptions C27_refuted_range.
(** [@optional @add(100) uint8 a; @optional uint8 b;] on the empty packet, then a packet where only the wider
    first field is missing: its transform is applied to the second field. *)
Theorem C27_refuted_transform : exists s',
  run quiet lm0 [0x4A; 0x45; 100; 0; 0; 0; 0; 0; 0; 0; 0x11; 0; 0; 0x10; 1; 0] 9 (init Dec [5]) tt =
  (Done EOk s', tt, [(ask 0 0x11 (cvar 2 0) (HMissing 0x11), nod); (ask 1 0x17 (cvar 8 105) (HField 0x10 (TAdd 100)), nod)]).
Proof. eexists. vm_compute. reflexivity. Qed.
Print Assumptions C27_refuted_transform.

(** ** C28 Switch dispatch *)

(** [dispatch cases dflt v] is the first case's offset with value [v], else [dflt]; [jumps] is the jump by that
    offset from the instruction after the switch. *)
Theorem C28_list_switch :
  forall (H : Type) (host : H -> request -> H * reply) lm bc, wf_bytes bc -> forall s h h' r,
  opcode_at bc s = 0x51 ->
  let base := ip s + 7 in let table := base + operand_at bc s 3 4 in
  let count := val_of LE (sub bc table 2) in
  base <= lenN bc -> table + 6 + 12 * count <= lenN bc ->
  let rq := ask (key_at bc s) 0x06 (cvar 8 0) HQuery in
  host h rq = (h', r) -> r_ok r = true ->
  let off := dispatch (case_list bc (table + 6) count) (val_of LE (sub bc (table + 2) 4)) (answer 8 0 r) in
  interp host (step lm bc s) h = (jumps bc (set_ip s base) base off, h', [(rq, r)]).
Proof. intros H. exact switch_list. Qed.
Print Assumptions C28_list_switch.
Theorem C28_dense_switch :
  forall (H : Type) (host : H -> request -> H * reply) lm bc, wf_bytes bc -> forall s h h' r,
  opcode_at bc s = 0x53 -> lenN bc < 2 ^ 62 ->
  let base := ip s + 7 in let table := base + operand_at bc s 3 4 in
  let mn := val_of LE (sub bc table 8) in let mx := val_of LE (sub bc (table + 8) 8) in
  mn <= mx -> base <= lenN bc -> table + 20 + 4 * (mx - mn + 1) <= lenN bc ->
  let rq := ask (key_at bc s) 0x06 (cvar 8 0) HQuery in
  host h rq = (h', r) -> r_ok r = true ->
  let off := dispatch (dense_list bc (table + 20) mn (mx - mn + 1)) (val_of LE (sub bc (table + 16) 4)) (answer 8 0 r) in
  interp host (step lm bc s) h = (jumps bc (set_ip s base) base off, h', [(rq, r)]).
Proof. intros H. exact switch_dense. Qed.
Print Assumptions C28_dense_switch.
(** The cases 5 -> +0, 7 -> +3 and default +6 as a list (with 6 left to the default) *)
Definition list_switch : list N :=
  [0x51; 0; 0; 9; 0; 0; 0] ++ [0x10; 5; 0; 0x10; 7; 0; 0x10; 9; 0] ++
  [2; 0; 6; 0; 0; 0] ++ [5; 0; 0; 0; 0; 0; 0; 0; 0; 0; 0; 0] ++ [7; 0; 0; 0; 0; 0; 0; 0; 3; 0; 0; 0].
Definition dense_switch : list N :=
  [0x53; 0; 0; 9; 0; 0; 0] ++ [0x10; 5; 0; 0x10; 7; 0; 0x10; 9; 0] ++
  [5; 0; 0; 0; 0; 0; 0; 0; 7; 0; 0; 0; 0; 0; 0; 0; 6; 0; 0; 0] ++ [0; 0; 0; 0; 6; 0; 0; 0; 3; 0; 0; 0].
Example C28_nonvacuous : forall v, In v [4; 5; 6; 7; 8; 2 ^ 63] ->
  exists s1 s2, interp (always v) (step lm0 list_switch (init Dec [])) tt = (SCont s1, tt, [(ask 0 6 (cvar 8 0) HQuery, say v)]) /\
    interp (always v) (step lm0 dense_switch (init Dec [])) tt = (SCont s2, tt, [(ask 0 6 (cvar 8 0) HQuery, say v)]) /\
    ip s1 = 7 + (if v =? 5 then 0 else if v =? 7 then 3 else 6) /\ ip s2 = ip s1.
Proof.
  intros v HV. cbn [In] in HV.
  repeat (destruct HV as [<-|HV]; [compute_it|]). easy.
Qed.

(** ** C48 Computed fields *)

(** Encoding an integer computed field writes the low bytes of the value ... *)
Theorem C48_encode :
  forall (H : Type) (host : H -> request -> H * reply) lm bc, wf_bytes bc -> forall s h n v rest,
  opcode_at bc s = 0x65 -> md s = Enc ->
  let ty := nthN bc (ip s + 1) in type_bytes ty = Some n -> ip s + 2 <= lenN bc ->
  stk s = v :: rest -> cur s + n <= lenN (buf s) ->
  interp host (step lm bc s) h =
    (SCont (mkst (md s) (put (buf s) (cur s) (bytes_of (en s) (N.to_nat n) v)) (ip s + 2)
                 (cur s + n) (boff s) (en s) (tr s) (opt s) (loops s) rest), h, []).
Proof. intros H. exact emit_enc. Qed.
Print Assumptions C48_encode.
(** ... and decoding the same bytes with the same value on the stack goes on exactly if the value, as an
    unsigned number, fits the field.  Full statement: it verifies whenever the value fits the declared type.
    For the signed types this is false for negative values, see below. *)
Theorem C48_verifies_partial :
  forall (H : Type) (host : H -> request -> H * reply) lm bc s h n v rest s' h1 t,
  wf_bytes bc -> wf_bytes (buf s) -> opcode_at bc s = 0x65 -> md s = Enc ->
  type_bytes (nthN bc (ip s + 1)) = Some n -> ip s + 2 <= lenN bc ->
  stk s = v :: rest -> cur s + n <= lenN (buf s) -> v < 2 ^ 64 ->
  interp host (step lm bc s) h = (SCont s', h1, t) ->
  forall (H2 : Type) (host2 : H2 -> request -> H2 * reply) d g rest2,
  wf_bytes (buf d) -> md d = Dec -> ip d = ip s -> en d = en s -> cur d = cur s -> stk d = v :: rest2 ->
  cur s + n <= lenN (buf d) -> sub (buf d) (cur s) n = sub (buf s') (cur s) n ->
  let d1 := set_stk (set_ip d (ip s + 2)) rest2 in
  interp host2 (step lm bc d) g =
    (if v <? 2 ^ (8 * n) then SCont (set_cur d1 (cur s + n)) else SHalt EValidation d1, g, []).
Proof. intros H. exact emit_round_trip. Qed.
Print Assumptions C48_verifies_partial.
Definition computed (v : N) (ty : N) : list N := 0x61 :: bytes_of LE 8 v ++ [0x65; ty].
Example C48_nonvacuous :
  exists s' d', fst (fst (run quiet lm0 (computed 300 0x11) 5 (init Enc [0; 0]) tt)) = Done EOk s' /\
    fst (fst (run quiet lm0 (computed 300 0x11) 5 (init Dec (buf s')) tt)) = Done EOk d' /\ buf s' = [44; 1].
Proof. do 2 eexists. split; [vm_compute; reflexivity|]. split; vm_compute; reflexivity. Qed.
(** The value -1 fits int8, yet the packet the encoder produces is refused by the decoder. *)
Theorem C48_refuted_negative : exists s' d',
  fits 1 true (-1) /\
  fst (fst (run quiet lm0 (computed (ofZ 8 (-1)) 0x14) 5 (init Enc [0]) tt)) = Done EOk s' /\
  fst (fst (run quiet lm0 (computed (ofZ 8 (-1)) 0x14) 5 (init Dec (buf s')) tt)) = Done EValidation d'.
Proof. do 2 eexists. split; [split; reflexivity || discriminate|].
  split; [vm_compute; reflexivity|]. vm_compute. reflexivity. Qed.
Print Assumptions C48_refuted_negative.
