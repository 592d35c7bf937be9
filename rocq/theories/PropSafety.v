(** C01 - C04, C06, C08: what a run can touch. *)
From Verif Require Import Base SpecBytes ModelFloat ModelVM SpecVM Samples LemSafety.

(** ** C01 Packet buffer containment *)

(** Full property: for every bytecode, packet, mode, host and number of steps, the outcome is not
    [Crash UData] and every pointer into the packet lent to the host covers only bytes of the packet.
    That is false of the code (see the refutations below).  Proved: it holds for every run in which
    no ALIGN_PAD skips past the end while decoding, no ENUM_CHECK has too few bytes before it, and no
    EMIT happens in the middle of a byte. *)
Theorem C01_packet_containment_partial :
  forall (H : Type) (host : H -> request -> H * reply) lm bc m data (h : H) fuel o h' t,
  wf_bytes bc -> lenN bc < 2 ^ 62 -> wf_bytes data ->
  during host lm bc (init m data) h (safe_at bc) ->
  run host lm bc fuel (init m data) h = (o, h', t) ->
  o <> Crash UData /\
  (forall rq r p l, In (rq, r) t -> rq_pl rq = PBuf p l -> p + lenN l <= lenN data).
Proof. intros. eapply packet_containment; eassumption. Qed.
Print Assumptions C01_packet_containment_partial.

(** In particular for every program without these three opcodes, whatever else it contains. *)
Theorem C01_packet_containment_without_three_opcodes :
  forall (H : Type) (host : H -> request -> H * reply) lm bc m data (h : H) fuel o h' t,
  wf_bytes bc -> lenN bc < 2 ^ 62 -> wf_bytes data ->
  Forall (fun b => b <> 0x23 /\ b <> 0x4B /\ b <> 0x65) bc ->
  run host lm bc fuel (init m data) h = (o, h', t) ->
  o <> Crash UData /\
  (forall rq r p l, In (rq, r) t -> rq_pl rq = PBuf p l -> p + lenN l <= lenN data).
Proof. intros. eapply packet_containment; eauto. now apply safe_bytes. Qed.
Print Assumptions C01_packet_containment_without_three_opcodes.

(** The second half holds for every program whatsoever: what is lent to the host is part of the packet. *)
Theorem C01_lent_blocks :
  forall (H : Type) (host : H -> request -> H * reply) lm bc m data (h : H) fuel o h' t,
  wf_bytes bc -> lenN bc < 2 ^ 62 -> wf_bytes data ->
  run host lm bc fuel (init m data) h = (o, h', t) ->
  forall rq r p l, In (rq, r) t -> rq_pl rq = PBuf p l -> p + lenN l <= lenN data.
Proof.
  intros H host lm bc m data h fuel o h' t WB BL WD R. change (lenN data) with (dlen (init m data)).
  eapply (LemRun.events_lent host lm bc False False False); eauto; try tauto. now apply LemSafe.init_Inv.
Qed.
Print Assumptions C01_lent_blocks.

(** The hypotheses hold for a decode run through bit fields, padding, a range check, a string, an array,
    a computed field and a CRC, in which pointers into the packet are lent. *)
Definition safe_atb (bc : list N) (s : st) : bool :=
  negb ((opcode_at bc s =? 0x23) && (8 * lenN (buf s) <? position s + nthN bc (ip s + 1)))
  && negb (opcode_at bc s =? 0x4B) && negb ((opcode_at bc s =? 0x65) && negb (boff s =? 0)).
Example C01_nonvacuous :
  during quiet lm0 prog1 (init Dec out1) tt (safe_at prog1) /\
  (exists s t, run quiet lm0 prog1 100 (init Dec out1) tt = (Done EOk s, tt, t) /\ cur s = 14) .
Proof.
  split.
  - apply (checked_during _ _ _ 100 _ _ (safe_atb prog1)); [vm_compute; reflexivity|].
    intros s. unfold safe_atb, safe_at, pads_past_end, enum_before_start, emits_mid_byte. intros E.
    repeat split; intros X; try (destruct X as (X1 & X2 & X3)); try (destruct X as (X1 & X2)); lia.
  - eexists. eexists. split; [vm_compute; reflexivity|reflexivity].
Qed.

(** [@pad(8)] followed by a NUL-terminated string, on an empty packet. *)
Theorem C01_refuted_padding : exists bc data,
  fst (fst (run quiet lm0 bc 100 (init Dec data) tt)) = Crash UData.
Proof. exists [0x23; 8; 0x30; 0; 0; 255; 0], []. vm_compute. reflexivity. Qed.
Print Assumptions C01_refuted_padding.
(** An optional enum field with no bytes left. *)
Theorem C01_refuted_optional_enum : exists bc data,
  fst (fst (run quiet lm0 bc 100 (init Dec data) tt)) = Crash UData.
Proof. exists [0x4A; 0x10; 0; 0; 0x4B; 0x10; 1; 0; 5], []. vm_compute. reflexivity. Qed.
Print Assumptions C01_refuted_optional_enum.
(** A 4-bit field, a computed byte, a CRC-16: in a one-byte buffer, while encoding. *)
Theorem C01_refuted_computed_field : exists bc data,
  fst (fst (run quiet lm0 bc 100 (init Enc data) tt)) = Crash UData.
Proof.
  exists [0x20; 0; 0; 4; 0x61; 1; 0; 0; 0; 0; 0; 0; 0; 0x65; 0x10; 0x44; 0x21; 0x10; 0; 0; 0; 0; 0], [0].
  vm_compute. reflexivity.
Qed.
Print Assumptions C01_refuted_computed_field.

(** ** C02 Fixed-size stacks *)
Theorem C02_stacks_bounded :
  forall (H : Type) (host : H -> request -> H * reply) lm bc m data (h : H) s' h',
  wf_bytes bc -> lenN bc < 2 ^ 62 -> wf_bytes data ->
  passes host lm bc (init m data) h s' h' -> lenN (stk s') <= 8 /\ lenN (loops s') <= 8.
Proof. intros. eapply stacks_bounded; eassumption. Qed.
Print Assumptions C02_stacks_bounded.

Theorem C02_no_access_outside_stacks :
  forall (H : Type) (host : H -> request -> H * reply) lm bc m data (h : H) fuel o h' t,
  wf_bytes bc -> lenN bc < 2 ^ 62 -> wf_bytes data ->
  run host lm bc fuel (init m data) h = (o, h', t) -> o <> Crash UStack.
Proof. intros. eapply no_stack_overrun; eassumption. Qed.
Print Assumptions C02_no_access_outside_stacks.

Theorem C02_underflow_is_reported :
  forall (H : Type) (host : H -> request -> H * reply) lm bc s (h : H),
  wf_bytes bc -> ip s < lenN bc -> lenN (stk s) < operands_needed (opcode_at bc s) ->
  exists s', interp host (step lm bc s) h = (SHalt EStackUnderflow s', h, []).
Proof. intros. now apply underflow_reported. Qed.
Print Assumptions C02_underflow_is_reported.

Theorem C02_overflow_is_reported :
  forall (H : Type) (host : H -> request -> H * reply) lm bc s (h : H),
  ip s < lenN bc -> lenN (stk s) = 8 ->
  (opcode_at bc s = 0x61 \/ opcode_at bc s = 0x64 \/
   (opcode_at bc s = 0x60 /\ forall rq, r_ok (snd (host h rq)) = true)) ->
  exists s' h' t, interp host (step lm bc s) h = (SHalt EStackOverflow s', h', t).
Proof. intros. now apply overflow_reported. Qed.
Print Assumptions C02_overflow_is_reported.

(** A program that duplicates a value for ever is stopped at the ninth value. *)
Example C02_nonvacuous : exists s t,
  run quiet lm0 [0x61; 7; 0; 0; 0; 0; 0; 0; 0; 0x64; 0x52; 0xFA; 0xFF; 0xFF; 0xFF] 100 (init Dec []) tt
    = (Done EStackOverflow s, tt, t) /\ lenN (stk s) = 8.
Proof. eexists. eexists. split; [vm_compute; reflexivity|reflexivity]. Qed.

(** ** C03 Decoding does not modify the packet *)

(** Full property: for every bytecode.  False for CONST_WRITE (0x41), which the compiler never emits; proved
    for every run that does not execute it, whether it succeeds, fails or goes on for ever. *)
Theorem C03_decode_keeps_packet_partial :
  forall (H : Type) (host : H -> request -> H * reply) lm bc data (h : H) s' h',
  wf_bytes bc -> lenN bc < 2 ^ 62 -> wf_bytes data ->
  host_reads_only host ->
  during host lm bc (init Dec data) h (fun s => opcode_at bc s <> 0x41) ->
  passes host lm bc (init Dec data) h s' h' -> buf s' = data.
Proof. intros. eapply decode_keeps_packet; eauto. Qed.
Print Assumptions C03_decode_keeps_packet_partial.

Example C03_nonvacuous :
  host_reads_only quiet /\ during quiet lm0 prog1 (init Dec out1) tt (fun s => opcode_at prog1 s <> 0x41).
Proof.
  split; [intros h rq; reflexivity|].
  apply (checked_during _ _ _ 100 _ _ (fun s => negb (opcode_at prog1 s =? 0x41))); [vm_compute; reflexivity|].
  intros s E X. lia.
Qed.
Theorem C03_refuted_const_write : exists bc data s t,
  run quiet lm0 bc 100 (init Dec data) tt = (Done EOk s, tt, t) /\ buf s <> data.
Proof.
  exists [0x41; 0x10; 9], [1]. eexists. eexists. split; [vm_compute; reflexivity|]. vm_compute. discriminate.
Qed.
Print Assumptions C03_refuted_const_write.

(** ** C04 Encoding writes only the reported output *)

(** Nothing at or beyond the reported end is changed, for every program. *)
Theorem C04_nothing_beyond_end :
  forall (H : Type) (host : H -> request -> H * reply) lm bc m data (h : H) s' h',
  wf_bytes bc -> lenN bc < 2 ^ 62 -> wf_bytes data -> host_refuses_cleanly host ->
  passes host lm bc (init m data) h s' h' ->
  lenN (buf s') = lenN data /\ forall i, position s' <= 8 * i -> nthN (buf s') i = nthN data i.
Proof. intros. eapply encode_beyond_end; eassumption. Qed.
Print Assumptions C04_nothing_beyond_end.

(** A byte before the cursor is final, for every program. *)
Theorem C04_completed_bytes_are_final :
  forall (H : Type) (host : H -> request -> H * reply) lm bc m data (h : H) s1 h1 s2 h2,
  wf_bytes bc -> lenN bc < 2 ^ 62 -> wf_bytes data -> host_refuses_cleanly host ->
  reaches host lm bc (init m data) h s1 h1 -> passes host lm bc s1 h1 s2 h2 ->
  forall i, i < cur s1 -> nthN (buf s2) i = nthN (buf s1) i.
Proof. intros. eapply encode_bytes_final; eassumption. Qed.
Print Assumptions C04_completed_bytes_are_final.

(** The bits of the byte at the cursor are final too, unless a computed field is emitted or the byte order
    is changed in the middle of a byte. *)
Theorem C04_emitted_bits_are_final_partial :
  forall (H : Type) (host : H -> request -> H * reply) lm bc m data (h : H) s1 h1 s2 h2,
  wf_bytes bc -> lenN bc < 2 ^ 62 -> wf_bytes data -> host_refuses_cleanly host ->
  reaches host lm bc (init m data) h s1 h1 -> passes host lm bc s1 h1 s2 h2 ->
  during host lm bc s1 h1 (fun s => ~ emits_mid_byte bc s /\ ~ switches_mid_byte bc s) ->
  forall j, j < position s1 -> sbit (en s1) (buf s2) j = sbit (en s1) (buf s1) j.
Proof. intros. eapply encode_bits_final; eassumption. Qed.
Print Assumptions C04_emitted_bits_are_final_partial.

Definition no_mid_byteb (bc : list N) (s : st) : bool :=
  (boff s =? 0) || (negb (opcode_at bc s =? 0x65) && negb (opcode_at bc s =? 1) && negb (opcode_at bc s =? 2)).
Example C04_nonvacuous :
  host_refuses_cleanly script /\
  during script lm0 prog1 (init Enc (repeat 0 20)) script1
    (fun s => ~ emits_mid_byte prog1 s /\ ~ switches_mid_byte prog1 s) /\
  exists s h t, run script lm0 prog1 100 (init Enc (repeat 0 20)) script1 = (Done EOk s, h, t) /\ cur s = 14.
Proof.
  split; [|split].
  - intros h rq. unfold script. destruct h as [|r l]; reflexivity.
  - apply (checked_during _ _ _ 100 _ _ (no_mid_byteb prog1)); [vm_compute; reflexivity|].
    intros s. unfold no_mid_byteb, emits_mid_byte, switches_mid_byte. lia.
  - eexists. eexists. eexists. split; [vm_compute; reflexivity|reflexivity].
Qed.

(** A 3-bit field holding 7, then a big-endian 5-bit field: the second field overwrites bits of the first. *)
Theorem C04_refuted_mid_byte_switch : exists bc h s1 h1 s2 h2 j,
  reaches script lm0 bc (init Enc [0]) h s1 h1 /\ passes script lm0 bc s1 h1 s2 h2 /\
  j < position s1 /\ sbit (en s1) (buf s2) j <> sbit (en s1) (buf s1) j.
Proof.
  exists [0x20; 0; 0; 3; 0x02; 0x20; 1; 0; 5], [say 7; say 0].
  eexists. eexists. eexists. eexists. exists 0.
  split; [|split; [|split]].
  - eapply reach_step; [apply reach_refl|reflexivity|vm_compute; reflexivity].
  - left. eapply reach_step; [eapply reach_step; [apply reach_refl|reflexivity|vm_compute; reflexivity]|reflexivity|vm_compute; reflexivity].
  - reflexivity.
  - vm_compute. discriminate.
Qed.
Print Assumptions C04_refuted_mid_byte_switch.
(** A 4-bit field holding 15, then a computed byte holding 0: the computed byte overwrites the field. *)
Theorem C04_refuted_computed_field : exists bc h s1 h1 s2 h2 j,
  reaches script lm0 bc (init Enc [0]) h s1 h1 /\ passes script lm0 bc s1 h1 s2 h2 /\
  j < position s1 /\ sbit (en s1) (buf s2) j <> sbit (en s1) (buf s1) j.
Proof.
  exists [0x20; 0; 0; 4; 0x61; 0; 0; 0; 0; 0; 0; 0; 0; 0x65; 0x10], [say 15].
  eexists. eexists. eexists. eexists. exists 0.
  split; [|split; [|split]].
  - eapply reach_step; [apply reach_refl|reflexivity|vm_compute; reflexivity].
  - left. eapply reach_step; [eapply reach_step; [apply reach_refl|reflexivity|vm_compute; reflexivity]|reflexivity|vm_compute; reflexivity].
  - reflexivity.
  - vm_compute. discriminate.
Qed.
Print Assumptions C04_refuted_computed_field.

(** ** C06 Bytecode containment *)

(** Full property: every bytecode.  False for a dense switch table claiming 2^61 entries or more, whose index
    arithmetic wraps; proved for every run that executes no such switch. *)
Theorem C06_bytecode_containment_partial :
  forall (H : Type) (host : H -> request -> H * reply) lm bc m data (h : H) fuel o h' t,
  wf_bytes bc -> lenN bc < 2 ^ 62 -> wf_bytes data ->
  during host lm bc (init m data) h (fun s => ~ huge_table bc s) ->
  run host lm bc fuel (init m data) h = (o, h', t) -> o <> Crash UIl.
Proof. intros. eapply bytecode_containment; eassumption. Qed.
Print Assumptions C06_bytecode_containment_partial.

(** A dense switch over 3..5 with discriminator 4 *)
Definition prog_table : list N :=
  [0x53; 0; 0; 5; 0; 0; 0; 0x52; 32; 0; 0; 0;                     (* switch; jump over the table *)
   3; 0; 0; 0; 0; 0; 0; 0; 5; 0; 0; 0; 0; 0; 0; 0; 37; 0; 0; 0;   (* min, max, default *)
   37; 0; 0; 0; 37; 0; 0; 0; 37; 0; 0; 0].
Example C06_nonvacuous :
  during (always 4) lm0 prog_table (init Dec []) tt (fun s => ~ huge_table prog_table s) /\
  (exists s, In s [init Dec []] /\ opcode_at prog_table s = 0x53) /\
  exists s t, run (always 4) lm0 prog_table 100 (init Dec []) tt = (Done EOk s, tt, t).
Proof.
  split; [|split].
  - apply (checked_during _ _ _ 100 _ _ (fun s => ip s =? 0)); [vm_compute; reflexivity|].
    intros s E [_ X]. apply N.eqb_eq in E. unfold operand_at in X. rewrite E in X. vm_compute in X. now apply X.
  - eexists. split; [left; reflexivity|reflexivity].
  - eexists. eexists. vm_compute. reflexivity.
Qed.
(** Table over 0..2^64-1 and a discriminator for which [index * 4] wraps.  C31 has a variant that the verifier accepts. *)
Definition prog_huge : list N :=
  [0x53; 0; 0; 1; 0; 0; 0; 0;
   0; 0; 0; 0; 0; 0; 0; 0; 255; 255; 255; 255; 255; 255; 255; 255; 0; 0; 0; 0].
Theorem C06_refuted_dense_switch : exists bc v,
  fst (fst (run (always v) lm0 bc 100 (init Dec []) tt)) = Crash UIl.
Proof. exists prog_huge, ((2 ^ 64 - 32) / 4). vm_compute. reflexivity. Qed.
Print Assumptions C06_refuted_dense_switch.

(** ** C08 Position *)
Theorem C08_position_never_decreases :
  forall (H : Type) (host : H -> request -> H * reply) lm bc m data (h : H) s1 h1 s2 h2,
  wf_bytes bc -> lenN bc < 2 ^ 62 -> wf_bytes data ->
  reaches host lm bc (init m data) h s1 h1 -> passes host lm bc s1 h1 s2 h2 ->
  position s1 <= position s2 /\ boff s2 < 8.
Proof. intros. eapply position_monotone; eassumption. Qed.
Print Assumptions C08_position_never_decreases.

(** Full property: the position stays in the packet in every run.  Missing: runs that pad past the end while
    decoding or emit a computed field in the middle of a byte, where it is false. *)
Theorem C08_position_inside_partial :
  forall (H : Type) (host : H -> request -> H * reply) lm bc m data (h : H) s' h',
  wf_bytes bc -> lenN bc < 2 ^ 62 -> wf_bytes data ->
  during host lm bc (init m data) h (safe_at bc) ->
  passes host lm bc (init m data) h s' h' -> position s' <= 8 * lenN data.
Proof. intros. eapply position_inside; eassumption. Qed.
Print Assumptions C08_position_inside_partial.
(** [C01_nonvacuous] shows a run meeting the hypotheses. *)

Theorem C08_refuted_padding : exists bc data s t,
  run quiet lm0 bc 100 (init Dec data) tt = (Done EOk s, tt, t) /\ lenN data < cur s.
Proof. exists [0x23; 8], []. eexists. eexists. split; [vm_compute; reflexivity|reflexivity]. Qed.
Print Assumptions C08_refuted_padding.
Theorem C08_refuted_computed_field : exists bc data s t,
  run quiet lm0 bc 100 (init Enc data) tt = (Done EOk s, tt, t) /\ 8 * lenN data < position s.
Proof.
  exists [0x20; 0; 0; 4; 0x61; 1; 0; 0; 0; 0; 0; 0; 0; 0x65; 0x10], [0].
  eexists. eexists. split; [vm_compute; reflexivity|reflexivity].
Qed.
Print Assumptions C08_refuted_computed_field.
