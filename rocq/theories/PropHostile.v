(** C80: a packet from anybody cannot take a compiled schema out of its memory. *)
From Coq Require Import Strings.String.
From Verif Require Import Base SpecBytes ModelWord ModelFloat ModelVM SpecVM ModelText SpecText ModelParse ModelSchema ModelImage SpecImage LemImage SpecParse LemParse SpecNames
  SpecPacket LemPacket SpecMessage SpecNest SpecParts SpecHostile LemHostile LemHostileFile Samples PropPacket PropNest PropParts PropFrames.
From Verif Require SpecArrays LemHostileLists PropArrays SpecSource LemHostileSource PropSource.
Local Open Scope N_scope.

(** ** C80 A packet from anybody cannot take a compiled schema out of its memory *)

(** Whatever bytes are given, whatever the host answers, and in whichever direction it goes: a compiled packet with bit fields, checksums,
    structures and converted numbers reads and writes nothing outside the data, reads nothing outside its instructions, and does not overrun
    its stack; and every string or block it lends to the host lies within the data.  When decoding, there must be no padding; and there
    must be no arrays, or few names and no number written with the byte that ends an array. *)
Theorem C80_contained_partial : forall E path k toks, holds_frame E path k toks ->
  Forall (fun n => lenN n <= 255) (frame_all k) -> lenN (frame_all k) <= 65535 -> 16 + table_bytes (frame_names k) < 2 ^ 32 ->
  without_arrays k \/ few_marks k ->
  exists im pr, (forall fuel, (length toks < fuel)%nat -> compile_file E fuel path = CImage im) /\ load_il im = Ok (Loaded pr) /\
    let bc := sub im (pr_bytecode pr) (pr_bytecode_len pr) in
    forall H (host : H -> request -> H * reply) lm m data h fuel o h' t, lenN bc < 2 ^ 62 -> wf_bytes data -> (m = Dec -> without_padding k) ->
    run host lm bc fuel (init m data) h = (o, h', t) ->
    (o <> Crash UData /\ o <> Crash UIl /\ o <> Crash UStack) /\
    (forall rq r p l, In (rq, r) t -> rq_pl rq = PBuf p l -> p + lenN l <= lenN data).
Proof. exact frame_safe. Qed.
Print Assumptions C80_contained_partial.

(** The packet of C79 has no arrays and no padding, and few names *)
Example C80_contained_nonvacuous :
  holds_frame (file src79) [] frame79 (toks_of src79) /\
  Forall (fun n => lenN n <= 255) (frame_all frame79) /\ lenN (frame_all frame79) <= 65535 /\ 16 + table_bytes (frame_names frame79) < 2 ^ 32 /\
  without_arrays frame79 /\ few_marks frame79 /\ without_padding frame79 /\ lenN (program_of (chars src79)) < 2 ^ 62.
Proof.
  split; [exact (proj1 C79_reads_nonvacuous)|]. split; [exact (proj1 (proj2 C79_reads_nonvacuous))|].
  split; [vm_compute; discriminate|]. split; [vm_compute; reflexivity|]. split; [|split; [|split; [|vm_compute; reflexivity]]].
  - intros m I. cbn in I. repeat (destruct I as [I|I]; [try discriminate; injection I as <-; cbn; repeat split|]). destruct I.
  - split; [vm_compute; discriminate|]. intros id i I J. vm_compute in I. repeat (destruct I as [<-|I]; [vm_compute in J; intuition discriminate|]). destruct I.
  - intros l w I J. cbn in I. repeat (destruct I as [I|I]; [try discriminate; injection I as <-; cbn in J; intuition discriminate|]). destruct I.
Qed.
(** That of C59 has an array of structures, few names and, as for encoding it may, padding *)
Example C80_contained_nonvacuous_array :
  holds_frame (file src59) [] frame59 (toks_of src59) /\ Forall (fun n => lenN n <= 255) (frame_all frame59) /\ lenN (frame_all frame59) <= 65535 /\
  16 + table_bytes (frame_names frame59) < 2 ^ 32 /\ few_marks frame59 /\ ~ without_arrays frame59 /\ lenN (program_of (chars src59)) < 2 ^ 62.
Proof.
  split; [exact C59_compiles_nonvacuous|]. split; [vm_compute; repeat constructor; discriminate|]. split; [vm_compute; discriminate|]. split; [vm_compute; reflexivity|].
  split; [|split; [|vm_compute; reflexivity]].
  - split; [vm_compute; discriminate|]. intros id i I J. vm_compute in I. repeat (destruct I as [<-|I]; [vm_compute in J; intuition discriminate|]). destruct I.
  - intros A. specialize (A (Nest [] (Counted 1) (chars "more") point57) ltac:(cbn; tauto)). destruct A as (A & _). discriminate.
Qed.

(** The same for packets with arrays counted by another field, where the host says how many values there are, and arrays up to the end of
    the message. *)
Theorem C80_contained_lists_partial : forall E path k toks, SpecArrays.holds_lists E path k toks -> 16 + table_bytes (SpecArrays.ls_names k) < 2 ^ 32 -> few_list_marks k ->
  exists im pr, (forall fuel, (length toks < fuel)%nat -> compile_file E fuel path = CImage im) /\ load_il im = Ok (Loaded pr) /\
    let bc := sub im (pr_bytecode pr) (pr_bytecode_len pr) in
    forall H (host : H -> request -> H * reply) lm m data h fuel o h' t, lenN bc < 2 ^ 62 -> wf_bytes data ->
    run host lm bc fuel (init m data) h = (o, h', t) ->
    (o <> Crash UData /\ o <> Crash UIl /\ o <> Crash UStack) /\
    (forall rq r p l, In (rq, r) t -> rq_pl rq = PBuf p l -> p + lenN l <= lenN data).
Proof. exact LemHostileLists.lists_safe. Qed.
Print Assumptions C80_contained_lists_partial.
Example C80_contained_lists_nonvacuous :
  SpecArrays.holds_lists (file PropArrays.src74) [] PropArrays.lists74 (toks_of PropArrays.src74) /\
  16 + table_bytes (SpecArrays.ls_names PropArrays.lists74) < 2 ^ 32 /\ few_list_marks PropArrays.lists74 /\ lenN (program_of (chars PropArrays.src74)) < 2 ^ 62.
Proof.
  split; [exact (proj1 PropArrays.C74_compiles_nonvacuous)|]. split; [vm_compute; reflexivity|]. split; [|vm_compute; reflexivity].
  split; [vm_compute; discriminate|]. intros id i I J. vm_compute in I. repeat (destruct I as [<-|I]; [vm_compute in J; intuition discriminate|]). destruct I.
Qed.

(** The same for packets with constants, ranges, enumerations, conditions, computed fields and switches, provided that every name is in the
    table of the image, which is so if there are no switches and computed fields and the numbers are small (C52). *)
Theorem C80_contained_source_partial : forall E path k toks, SpecSource.holds_source E path k toks ->
  lenN (SpecSource.source_names k) <= 65535 -> 16 + table_bytes (SpecSource.source_names k) < 2 ^ 32 ->
  exists im pr, (exists n, forall fuel, (n <= fuel)%nat -> compile_file E fuel path = CImage im) /\ load_il im = Ok (Loaded pr) /\
    (SpecSource.tame (SpecSource.s_body k) \/ (forall n, In n (SpecSource.source_names k) -> exists i, get_key_id im pr n = Ok i /\ i <> 0xFFFF) ->
     let bc := sub im (pr_bytecode pr) (pr_bytecode_len pr) in
     forall H (host : H -> request -> H * reply) lm m data h fuel o h' t, lenN bc < 2 ^ 31 -> wf_bytes data ->
     run host lm bc fuel (init m data) h = (o, h', t) ->
     (o <> Crash UData /\ o <> Crash UIl /\ o <> Crash UStack) /\
     (forall rq r p l, In (rq, r) t -> rq_pl rq = PBuf p l -> p + lenN l <= lenN data)).
Proof.
  intros E path k toks HS LN TB. destruct (LemHostileSource.source_bounds E path k toks HS LN TB) as (im & pr & C & L & W). exists im, pr.
  split; [exact C|]. split; [exact L|]. cbv zeta. intros K H host lm m data h fuel o h' t LB WD. exact (proj1 (W K H host lm m data h LB WD) fuel o h' t).
Qed.
Print Assumptions C80_contained_source_partial.
(** The packets of C52, with small numbers, and of C54, with computed fields and a switch *)
Example C80_contained_source_nonvacuous :
  (SpecSource.holds_source (file PropSource.src52) [] PropSource.source52 (toks_of PropSource.src52) /\ SpecSource.tame (SpecSource.s_body PropSource.source52)) /\
  (SpecSource.holds_source (file PropSource.src54) [] PropSource.source54 (toks_of PropSource.src54) /\
   exists im pr, compile_file (file PropSource.src54) 300 [] = CImage im /\ load_il im = Ok (Loaded pr) /\
     forall n, In n (SpecSource.source_names PropSource.source54) -> exists i, get_key_id im pr n = Ok i /\ i <> 0xFFFF).
Proof.
  pose proof PropSource.C52_nonvacuous as (A & B & _). pose proof PropSource.C54_nonvacuous as (C & _ & _ & im & pr & D & F & G).
  split; [split; [exact A|exact B]|]. split; [exact C|]. exists im, pr. split; [exact D|]. split; [exact F|]. intros n I. exists (PropSource.id54 n). exact (G n I).
Qed.

(** *** Where it fails *)

(** Full property: the same conclusion for every schema the compiler accepts.  It fails, with packets from an attacker:

    [run_on m src data] is how the compiled [src] ends on [data]. *)
Definition run_on (m : mode) (src : string) (data : list N) : outcome := fst (fst (run Samples.quiet lm0 (program_of (chars src)) 300 (init m data) tt)).
(** An optional enumeration is read behind the end of an empty packet. *)
Theorem C80_refuted_optional_enum : run_on Dec "enum E : u8 { A } packet P { @optional E e; }" [] = Crash UData.
Proof. vm_compute. reflexivity. Qed.
Print Assumptions C80_refuted_optional_enum.
(** Padding moves behind the end of the data, and a string behind it is looked for there. *)
Theorem C80_refuted_padding_string : run_on Dec "packet P { @pad(8); string s max 4; }" [] = Crash UData.
Proof. vm_compute. reflexivity. Qed.
Print Assumptions C80_refuted_padding_string.
(** So is the data of a checksum. *)
Theorem C80_refuted_padding_crc : run_on Dec "packet P { @pad(8); @crc(16) u16 s; }" [] = Crash UData.
Proof. vm_compute. reflexivity. Qed.
Print Assumptions C80_refuted_padding_crc.
(** And when encoding, a computed field behind a bit field leaves the position behind the end of a small buffer, where the checksum then reads. *)
Theorem C80_refuted_computed : run_on Enc "packet P { u8 a : 4; @expr(1) u8 b; @crc(16) u16 c; }" [0] = Crash UData.
Proof. vm_compute. reflexivity. Qed.
Print Assumptions C80_refuted_computed.
(** And numbers in the schema are run as instructions: an empty array is skipped up to the next byte 0x38, here inside the number that is added;
    the bytes behind it are padding and a string. *)
Theorem C80_refuted_number_run : run_on Dec "struct S { @add(0x0004000130082338) u64 s; } packet P { S xs[] prefix u8; }" [0] = Crash UData.
Proof. vm_compute. reflexivity. Qed.
Print Assumptions C80_refuted_number_run.
