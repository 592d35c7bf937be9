(** C59: bit fields and checksums. *)
From Coq Require Import Strings.String.
From Verif Require Import Base SpecBytes ModelWord ModelFloat ModelTrans ModelVM SpecVM SpecCrc ModelText SpecText ModelParse ModelSchema
  ModelImage SpecImage LemImage SpecParse LemParse SpecNames SpecPacket LemPacket SpecMessage LemMessage SpecNest LemNest LemNestFile LemNestWire LemNestRun
  SpecParts LemParts LemPartsFile LemPartsWire LemPartsBits LemPartsRun Samples PropPacket PropNest.

(** ** C59 Bit fields and checksums *)

(** A file of structures and a packet with bit fields, padding, filling and checksum fields among its members is compiled to an
    image whose names are those of the packet's fields, but for the checksums, and whose code is the packet's instructions. *)
Theorem C59_compiles : forall E path k toks, holds_frame E path k toks ->
  Forall (fun n => lenN n <= 255) (frame_all k) -> lenN (frame_all k) <= 65536 ->
  exists names, NoDup names /\ (forall s, In s names <-> In s (frame_names k)) /\
    forall fuel, (length toks < fuel)%nat ->
      compile_file E fuel path = CImage (image names (code (frame_instrs (index_of names) k))).
Proof.
  intros E path k toks HS LB UL. pose proof (frame_text E path k toks HS) as TX. destruct HS as (src & ws & RD & LX & M & SR). eapply compile_frame; eauto.
Qed.
Print Assumptions C59_compiles.

(** From the source to the wire: the image loads, under the names of the packet. Encoding asks for the values in order, packs the
    bits, and puts in place of each checksum that of all the bytes before it, without asking; decoding such a message reports the
    same values. *)
Theorem C59_source_to_wire_partial : forall E path k toks, holds_frame E path k toks ->
  Forall (fun n => lenN n <= 255) (frame_all k) -> lenN (frame_all k) <= 65535 -> 16 + table_bytes (frame_names k) < 2 ^ 32 ->
  Forall (fun p => part_depth p <= 8) (fr_parts k) ->
  exists im pr id, (forall fuel, (length toks < fuel)%nat -> compile_file E fuel path = CImage im) /\
    load_il im = Ok (Loaded pr) /\
    (forall n, In n (frame_names k) -> exists p, get_key_name im pr (id n) = Ok (Some p) /\ string_at im p n) /\
    let bc := sub im (pr_bytecode pr) (pr_bytecode_len pr) in
    (forall gs, Forall2 part_ok (fr_parts k) gs -> Forall2 (part_skips (lenN (frame_names k))) (fr_parts k) gs ->
      let msg := frame_bytes k gs in
      (forall H (host : H -> request -> H * reply) lm data h t h', wf_bytes data -> lenN msg <= lenN data ->
        parts_said Enc id 0 data (fr_parts k) gs t -> plays host h t h' ->
        exists s' n, (forall fuel, (n <= fuel)%nat -> run host lm bc fuel (init Enc data) h = (Done EOk s', h', t)) /\
          buf s' = msg ++ skipn (N.to_nat (lenN msg)) data /\ position s' = 8 * lenN msg) /\
      (forall H (host : H -> request -> H * reply) lm rest h t h', wf_bytes rest ->
        parts_said Dec id 0 (msg ++ rest) (fr_parts k) gs t -> plays host h t h' ->
        exists s' n, (forall fuel, (n <= fuel)%nat -> run host lm bc fuel (init Dec (msg ++ rest)) h = (Done EOk s', h', t)) /\
          buf s' = msg ++ rest /\ position s' = 8 * lenN msg)) /\
    (** Bytes that begin like the message of some values, up to a checksum, but hold something else in place of the checksum are
        refused there. *)
    (forall ps1 ds n ps2 gs, fr_parts k = ps1 ++ Check ds n :: ps2 -> Forall2 part_ok ps1 gs -> Forall2 (part_skips (lenN (frame_names k))) ps1 gs ->
      let (body, o) := parts_bytes [] ps1 gs (frame_order k) in
      forall H (host : H -> request -> H * reply) lm stored rest h t h', wf_bytes stored -> wf_bytes rest -> lenN stored = crc_width (crc_of ds) ->
        stored <> fst (part_bytes body (Check ds n) Auto o) ->
        parts_said Dec id 0 (body ++ stored ++ rest) ps1 gs t -> plays host h t h' ->
        exists s' fu, (forall fuel, (fu <= fuel)%nat -> run host lm bc fuel (init Dec (body ++ stored ++ rest)) h = (Done ECrc s', h', t))) /\
    (** If the polynomial has a constant term, every damage to the bytes before a checksum that is confined to as many successive
        bits as the checksum has is refused, if the damaged bytes are still those of some values (otherwise they are not read so
        far). *)
    (forall ps1 ds n ps2 gs gs', fr_parts k = ps1 ++ Check ds n :: ps2 -> N.odd (k_poly (crc_of ds)) = true ->
      Forall2 part_ok ps1 gs -> Forall2 part_ok ps1 gs' -> Forall2 (part_skips (lenN (frame_names k))) ps1 gs' ->
      let (body, o) := parts_bytes [] ps1 gs (frame_order k) in
      let (body', o') := parts_bytes [] ps1 gs' (frame_order k) in
      lenN body' = lenN body -> body' <> body -> o' = o ->
      (exists w, forall i, i < 8 * lenN body -> message_bit (k_in (crc_of ds)) body i <> message_bit (k_in (crc_of ds)) body' i ->
         w <= i < w + 8 * crc_width (crc_of ds)) ->
      let stored := fst (part_bytes body (Check ds n) Auto o) in
      forall H (host : H -> request -> H * reply) lm rest h t h', wf_bytes rest ->
        parts_said Dec id 0 (body' ++ stored ++ rest) ps1 gs' t -> plays host h t h' ->
        exists s' fu, (forall fuel, (fu <= fuel)%nat -> run host lm bc fuel (init Dec (body' ++ stored ++ rest)) h = (Done ECrc s', h', t))).
Proof.
  intros E path k toks HS LB UL TB DP. destruct (frame_wire E path k toks HS LB UL TB) as (im & pr & id & C & L & NM & IB & BC).
  destruct (frame_plain E path k toks id HS UL IB) as (MP & NL).
  exists im, pr, id. split; [exact C|]. split; [exact L|]. split; [exact NM|]. cbv zeta. rewrite BC.
  assert (RF : forall ps1 ds n ps2 gs, fr_parts k = ps1 ++ Check ds n :: ps2 -> Forall2 part_ok ps1 gs -> Forall2 (part_skips (lenN (frame_names k))) ps1 gs ->
      let (body, o) := parts_bytes [] ps1 gs (frame_order k) in
      forall H (host : H -> request -> H * reply) lm stored rest h t h', wf_bytes stored -> wf_bytes rest -> lenN stored = crc_width (crc_of ds) ->
        stored <> fst (part_bytes body (Check ds n) Auto o) ->
        parts_said Dec id 0 (body ++ stored ++ rest) ps1 gs t -> plays host h t h' ->
        exists s' fu, (forall fuel, (fu <= fuel)%nat -> run host lm (SpecNames.code (frame_instrs id k)) fuel (init Dec (body ++ stored ++ rest)) h = (Done ECrc s', h', t))).
  { intros ps1 ds n ps2 gs EP OK SK. destruct (parts_bytes [] ps1 gs (frame_order k)) as [body o] eqn:EB. intros H host lm stored rest h t h' WS WR LS NE SD PL.
    pose proof (frame_refuses host lm id k (lenN (frame_names k)) MP IB NL DP ps1 ds n ps2 gs stored rest t h h' EP OK SK) as X. rewrite EB in X.
    destruct (X SD WS WR LS NE PL) as (s' & fu & R & _). eauto. }
  split; [|split; [exact RF|]].
  - intros gs OK SK. split; intros.
    + eapply (frame_run_whole host lm id k (lenN (frame_names k))); eauto. split; [assumption|discriminate].
    + destruct (frame_run_whole host lm id k (lenN (frame_names k)) MP IB NL DP Dec (frame_bytes k gs ++ rest) gs t h h') as (s' & n & R & B & P); auto.
      * apply LemBase.wf_app; [now apply parts_wf, parts_ok_all|assumption].
      * split; [rewrite LemBase.lenN_app; Lia.lia|]. intros _. unfold after. now rewrite skipn_front.
      * exists s', n. split; [exact R|]. split; [|exact P]. rewrite B. unfold after. now rewrite skipn_front.
  - intros ps1 ds n ps2 gs gs' EP OD OK OK' SK'. pose proof (RF ps1 ds n ps2 gs' EP OK' SK') as X.
    pose proof (parts_wf ps1 gs [] (frame_order k) (parts_ok_all _ _ OK)) as WB. pose proof (parts_wf ps1 gs' [] (frame_order k) (parts_ok_all _ _ OK')) as WB'.
    destruct (parts_bytes [] ps1 gs (frame_order k)) as [body o]. destruct (parts_bytes [] ps1 gs' (frame_order k)) as [body' o']. cbn [fst] in WB, WB'.
    intros LE NE -> (w & WN) H host lm rest h t h' WR SD PL. eapply X; eauto; [apply wf_stored|apply len_stored|]. eapply stored_differ; eauto.
Qed.
Print Assumptions C59_source_to_wire_partial.

Definition src59 : string :=
  "struct Point { i16 x; @be u16 y; }
   packet Frame { u8 ver : 4; i8 dir : 3; @pad(1); u16 size : 12; @fill(1); Point p;
                  @crc(16) @crc_xor(1) u16 head; Point more[] prefix u8; @crc(32) @be u32 sum; }".
Definition parts59 : list part :=
  [Bits [Bit false 4 (chars "ver"); Bit true 3 (chars "dir"); Pad 1; Bit false 12 (chars "size"); Fill true]; Member (Nest [] One (chars "p") point57)].
Definition frame59 : frame := {| fr_structs := [(chars "Point", point57)]; fr_orders := []; fr_name := chars "Frame";
  fr_parts := parts59 ++ [Check [CWidth false; CXor 1] (chars "head"); Member (Nest [] (Counted 1) (chars "more") point57); Check [CWidth true; COrder true] (chars "sum")] |}.
Example C59_compiles_nonvacuous : holds_frame (file src59) [] frame59 (toks_of src59).
Proof.
  assert (L1 : literal (chars "1") 1) by (apply (lit_dec _ [1]); repeat constructor).
  assert (L3 : literal (chars "3") 3) by (apply (lit_dec _ [3]); repeat constructor).
  assert (L4 : literal (chars "4") 4) by (apply (lit_dec _ [4]); repeat constructor).
  assert (L12 : literal (chars "12") 12) by (apply (lit_dec _ [1; 2]); repeat constructor).
  assert (L16 : literal (chars "16") 16) by (apply (lit_dec _ [1; 6]); repeat constructor).
  assert (L32 : literal (chars "32") 32) by (apply (lit_dec _ [3; 2]); repeat constructor).
  assert (M : forall dbl env x s n b w, In (s, b) env -> extent_read x w -> part_read dbl env (Member (Nest [] x n b)) ([] ++ [(TIdentifier, s); (TIdentifier, n)] ++ w ++ [sign TSemicolon ";"])).
  { intros. apply read_member, nest_read; auto. constructor. }
  exists (chars src59), (removelast (map word_of (toks_of src59))). split; [reflexivity|]. split; [vm_compute; reflexivity|]. split; [vm_compute; reflexivity|].
  eexists _, [], _. split; [|split; [constructor|split; [|split; [|split]]]].
  - eapply structs_more with (sc := []).
    + eapply members_more; [apply flat_read; eexists [], _, _; split; [constructor|]; split; [apply (read_one 0x15 "i16"); member|reflexivity]|]. eapply members_more; [|apply members_none].
      apply flat_read. eexists [sign TAt "@"; ident "be"], _, _. split; [apply ord_more; [member|constructor]|]. split; [apply (read_one 0x11 "u16"); member|reflexivity].
    + intros [].
    + vm_compute. intuition discriminate.
    + vm_compute. repeat constructor; cbn; intuition discriminate.
    + now left.
    + apply structs_none.
  - eapply several_more; [apply read_run|].
    { eapply several_more; [apply (read_bit 0x10 "u8" false 4 (chars "ver") (chars "4")); [member|member|exact L4|split; discriminate]|].
      eapply several_more; [apply (read_bit 0x14 "i8" true 3 (chars "dir") (chars "3")); [member|member|exact L3|split; discriminate]|].
      eapply several_more; [apply (read_pad 1 (chars "1")); [exact L1|discriminate]|].
      eapply several_more; [apply (read_bit 0x11 "u16" false 12 (chars "size") (chars "12")); [member|member|exact L12|split; discriminate]|].
      eapply several_more; [apply (read_filled true (chars "1")); exact L1|]. apply several_none. }
    eapply several_more; [apply (M _ _ _ (chars "Point")); [now left|constructor]|].
    eapply several_more; [eapply (read_check _ _ _ _ _ false "u16"); [|reflexivity|member]|].
    { eapply several_more; [apply (read_cwidth false (chars "16")); exact L16|]. eapply several_more; [apply (read_cxor 1 (chars "1")); [exact L1|reflexivity]|]. apply several_none. }
    eapply several_more; [apply (M _ _ _ (chars "Point")); [now left|apply (ext_counted 1 "u8"); member]|].
    eapply several_more; [eapply (read_check _ _ _ _ _ true "u32"); [|reflexivity|member]|apply several_none].
    eapply several_more; [apply (read_cwidth true (chars "32")); exact L32|]. eapply several_more; [apply (read_corder true "be"); member|]. apply several_none.
  - vm_compute. intuition discriminate.
  - vm_compute. repeat constructor; cbn; intuition discriminate.
  - vm_compute. reflexivity.
Qed.
Definition given59 : list given := [Nums [10; 2 ^ 64 - 3; 0x123]; Tree (Groups [[one 0x304; one 0x506]])].
Definition rest59 : list given := [Auto; Tree (Groups [[one 7; one 8]]); Auto].
Definition body59 : list N := [0x5A; 0x23; 0xF1; 4; 3; 5; 6].
(** The checksums are those of binascii.crc_hqx and zlib.crc32. *)
Definition msg59 : list N := body59 ++ [0x6B; 0x8A] ++ [1; 7; 0; 0; 8] ++ [0xBA; 0xFB; 0xDF; 0x52].
(** Three bits of the first two bytes damaged *)
Definition given59' : list given := [Nums [9; 2 ^ 64 - 3; 0x122]; Tree (Groups [[one 0x304; one 0x506]])].
Ltac parts_talk :=
  lazymatch goal with
  | |- parts_said _ _ _ _ [] [] _ => apply parts_said_none
  | |- parts_said _ _ _ _ (Member _ :: _) _ _ => eapply parts_said_member; [repeat talk|]
  | |- parts_said _ _ _ _ (Check _ _ :: _) _ _ => eapply parts_said_check
  end.
Example C59_wire_nonvacuous :
  Forall (fun n => lenN n <= 255) (frame_all frame59) /\ lenN (frame_all frame59) = 19 /\ lenN (frame_names frame59) = 10 /\ 16 + table_bytes (frame_names frame59) < 2 ^ 32 /\
  Forall (fun p => part_depth p <= 8) (fr_parts frame59) /\ Forall2 part_ok (fr_parts frame59) (given59 ++ rest59) /\
  Forall2 (part_skips 10) (fr_parts frame59) (given59 ++ rest59) /\ frame_bytes frame59 (given59 ++ rest59) = msg59 /\
  (exists t, parts_said Enc (SpecParse.index_of (frame_names frame59)) 0 (repeat 0 40) (fr_parts frame59) (given59 ++ rest59) t /\ plays actor
     [say 10; say (2 ^ 64 - 3); say 0x123; nod; say 0x304; say 0x506; nod; say 1; nod; say 7; say 8; nod; nod] t []) /\
  (exists t, parts_said Dec (SpecParse.index_of (frame_names frame59)) 0 msg59 (fr_parts frame59) (given59 ++ rest59) t /\ plays actor (repeat nod 13) t []).
Proof.
  split; [vm_compute; repeat constructor; discriminate|]. split; [vm_compute; reflexivity|]. split; [vm_compute; reflexivity|]. split; [vm_compute; reflexivity|].
  split; [vm_compute; repeat constructor; discriminate|]. split; [repeat constructor; vm_compute; intuition discriminate|]. split; [repeat constructor; vm_compute; intuition discriminate|]. split; [vm_compute; reflexivity|]. split.
  - eexists. split.
    + eapply parts_said_bits with (z := 3); [exists (say 10); eexists; repeat split; exists (say (2 ^ 64 - 3)); eexists; repeat split; exists (say 0x123); eexists; repeat split|reflexivity|]. repeat parts_talk.
    + cbn [app]. repeat (eapply plays_more; [reflexivity|]). apply plays_none.
  - eexists. split.
    + eapply parts_said_bits with (z := 3); [exists nod; eexists; repeat split; [discriminate|]; exists nod; eexists; repeat split; [discriminate|]; exists nod; eexists; repeat split; discriminate|reflexivity|]. repeat parts_talk.
    + cbn [app]. repeat (eapply plays_more; [reflexivity|]). apply plays_none.
Qed.
Example C59_refusal_nonvacuous :
  N.odd (k_poly (crc_of [CWidth false; CXor 1])) = true /\ Forall2 part_ok parts59 given59 /\ Forall2 part_ok parts59 given59' /\ Forall2 (part_skips 10) parts59 given59' /\
  parts_bytes [] parts59 given59 (frame_order frame59) = (body59, LE) /\
  parts_bytes [] parts59 given59' (frame_order frame59) = ([0x59; 0x22] ++ skipn 2 body59, LE) /\
  (forall i, i < 56 -> message_bit false body59 i <> message_bit false ([0x59; 0x22] ++ skipn 2 body59) i -> 6 <= i < 22) /\
  (exists t, parts_said Dec (SpecParse.index_of (frame_names frame59)) 0 ([0x59; 0x22] ++ skipn 2 msg59) parts59 given59' t /\ plays actor (repeat nod 7) t []).
Proof.
  split; [reflexivity|]. split; [repeat constructor; vm_compute; intuition discriminate|]. split; [repeat constructor; vm_compute; intuition discriminate|].
  split; [repeat constructor; vm_compute; intuition discriminate|]. split; [vm_compute; reflexivity|]. split; [vm_compute; reflexivity|]. split.
  - assert (X : forallb (fun i => Bool.eqb (message_bit false body59 i) (message_bit false ([0x59; 0x22] ++ skipn 2 body59) i) || ((6 <=? i) && (i <? 22))) (upto 56) = true) by (vm_compute; reflexivity).
    rewrite forallb_forall in X. intros i I D. specialize (X i ltac:(unfold upto; apply in_map_iff; exists (N.to_nat i); split; [Lia.lia|apply in_seq; Lia.lia])).
    apply Bool.orb_prop in X as [X|X]; [apply Bool.eqb_prop in X; contradiction|]. apply andb_prop in X as (A & B). apply N.leb_le in A. apply N.ltb_lt in B. auto.
  - eexists. split.
    + eapply parts_said_bits with (z := 3); [exists nod; eexists; repeat split; [discriminate|]; exists nod; eexists; repeat split; [discriminate|]; exists nod; eexists; repeat split; discriminate|reflexivity|]. repeat parts_talk.
    + cbn [app]. repeat (eapply plays_more; [reflexivity|]). apply plays_none.
Qed.

(** *** Where it fails *)

(** Full property: the conclusion of [C59_source_to_wire_partial] also for runs of bit fields that do not fill whole bytes, with the order of
    a checksum's decorators immaterial.  Neither is so.

    The bits of the last byte that belong to no field keep what the buffer held before: one packet has several encodings. *)
Definition src59b : list N := chars "packet P { u8 a : 4; u8 b; }".
Theorem C59_refuted_part_of_byte : forall lm x, x < 2 ->
  exists s, run actor lm (program_of src59b) 10 (init Enc [240 * x; 0]) [say 5; say 6] = (Done EOk s, [], [(ask 0 0x20 (cvar 8 0) (HBitU 4), say 5); (ask 1 0x10 (cvar 1 0) (HField 0x10 TNone), say 6)]) /\
  buf s = [5 + 240 * x; 6].
Proof. intros lm x L. destruct x as [|[]]; try Lia.lia; eexists; vm_compute; split; reflexivity. Qed.
Print Assumptions C59_refuted_part_of_byte.
(** A reflection asked for before the width of the checksum is forgotten. *)
Definition src59r : list N := chars "packet P { u8 a; @crc_refin @crc(16) u16 c; }".
Definition src59s : list N := chars "packet P { u8 a; @crc(16) @crc_refin u16 c; }".
Definition src59t : list N := chars "packet P { u8 a; @crc(16) u16 c; }".
Theorem C59_refuted_reflection : program_of src59r = program_of src59t /\ program_of src59r <> program_of src59s.
Proof. split; vm_compute; [reflexivity|discriminate]. Qed.
Print Assumptions C59_refuted_reflection.
