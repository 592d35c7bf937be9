(** C79: every received byte string is read as one frame, or refused. *)
From Coq Require Import Strings.String.
From Verif Require Import Base SpecBytes ModelWord ModelFloat ModelTrans ModelVM SpecVM SpecCrc ModelText SpecText ModelParse ModelSchema
  ModelImage SpecImage LemImage SpecParse LemParse SpecNames SpecPacket LemPacket SpecMessage LemMessage SpecNest LemNest LemNestFile LemNestWire LemNestRun
  SpecRead LemReadBytes LemReadVM LemRead SpecParts LemParts LemPartsFile LemPartsWire LemPartsBits LemPartsRun SpecFrames LemFrames Samples PropPacket PropNest PropRead.

(** ** C79 Every received byte string is read as one frame, or refused *)

(** Whatever bytes arrive, decoding them with a compiled packet that has bit fields, checksums and converted numbers comes to an end, in
    one of four ways. It reports a message with which the bytes begin - part by part, all its checksums right, with nothing read behind it
    -, or it stops with "out of bounds" on bytes that are the beginning of a message, or end inside or before a checksum, or with
    "validation" on bytes that no continuation makes begin with a message, or with a checksum error on bytes that begin like a message
    up to a checksum, in whose place something else is found, and that no continuation makes begin with a message either. *)
Theorem C79_reads_partial : forall E path k toks, holds_frame E path k toks ->
  Forall (fun n => lenN n <= 255) (frame_all k) -> lenN (frame_all k) <= 65535 -> 16 + table_bytes (frame_names k) < 2 ^ 32 ->
  Forall (fun p => part_depth p <= 8) (fr_parts k) -> Forall (part_definite (lenN (frame_names k))) (fr_parts k) -> settled (fr_parts k) ->
  exists im pr id, (forall fuel, (length toks < fuel)%nat -> compile_file E fuel path = CImage im) /\
    load_il im = Ok (Loaded pr) /\
    (forall n, In n (frame_names k) -> exists p, get_key_name im pr (id n) = Ok (Some p) /\ string_at im p n) /\
    let bc := sub im (pr_bytecode pr) (pr_bytecode_len pr) in
    forall H (host : H -> request -> H * reply) lm data h, listens host -> wf_bytes data ->
    exists e s' h' t n, (forall fuel, (n <= fuel)%nat -> run host lm bc fuel (init Dec data) h = (Done e s', h', t)) /\
      (e = EOk /\ (exists gs rest, Forall2 part_ok (fr_parts k) gs /\ data = frame_bytes k gs ++ rest /\
         parts_said Dec id 0 data (fr_parts k) gs t /\ position s' = 8 * lenN (frame_bytes k gs)) \/
       e = EOob /\ (frame_incomplete k data \/ broken_off [] (fr_parts k) (frame_order k) data) \/
       e = EValidation /\ frame_malformed k data \/
       e = ECrc /\ frame_malformed k data /\ damaged [] (fr_parts k) (frame_order k) data).
Proof.
  intros E path k toks HS LB UL TB DP DF ST. destruct (frame_wire E path k toks HS LB UL TB) as (im & pr & id & C & L & NM & IB & BC).
  destruct (frame_plain E path k toks id HS UL IB) as (MP & NL).
  exists im, pr, id. split; [exact C|]. split; [exact L|]. split; [exact NM|]. cbv zeta. rewrite BC.
  intros H host lm data h LI WD. destruct (frame_reads host lm id k (lenN (frame_names k)) LI MP IB NL DP DF ST data h WD)
    as [(gs & rest & s' & h' & t & n & K & ED & SD & R & P)|[((n & s' & h' & t & R) & X)|[((n & s' & h' & t & R) & X)|((n & s' & h' & t & R) & X)]]].
  - exists EOk, s', h', t, n. split; [exact R|]. left. split; [reflexivity|]. exists gs, rest. auto.
  - exists EOob, s', h', t, n. auto 6.
  - exists EValidation, s', h', t, n. auto 6.
  - exists ECrc, s', h', t, n. auto 6.
Qed.
Print Assumptions C79_reads_partial.

(** No two messages of a packet begin alike: the message found, and what is left behind it, are determined by the bytes. *)
Theorem C79_unique : forall E path k toks gs gs' rest rest', holds_frame E path k toks ->
  Forall (fun n => lenN n <= 255) (frame_all k) -> lenN (frame_all k) <= 65535 -> 16 + table_bytes (frame_names k) < 2 ^ 32 ->
  Forall (part_definite (lenN (frame_names k))) (fr_parts k) ->
  Forall2 part_ok (fr_parts k) gs -> Forall2 part_ok (fr_parts k) gs' -> frame_bytes k gs ++ rest = frame_bytes k gs' ++ rest' -> gs = gs' /\ rest = rest'.
Proof.
  intros E path k toks gs gs' rest rest' HS LB UL TB DF K K' EB. destruct (frame_wire E path k toks HS LB UL TB) as (im & pr & id & _ & _ & _ & IB & _).
  destruct (frame_plain E path k toks id HS UL IB) as (MP & _). exact (parts_apart id _ _ MP DF _ _ _ _ _ _ K K' EB).
Qed.
Print Assumptions C79_unique.
(** And so bytes that begin with a message are in none of the conditions under which reading is refused: they are accepted, and no others
    are. *)
Theorem C79_exclusive : forall E path k toks data, holds_frame E path k toks ->
  Forall (fun n => lenN n <= 255) (frame_all k) -> lenN (frame_all k) <= 65535 -> 16 + table_bytes (frame_names k) < 2 ^ 32 ->
  Forall (part_definite (lenN (frame_names k))) (fr_parts k) ->
  ~ (frame_complete k data /\ frame_incomplete k data) /\ ~ (frame_complete k data /\ broken_off [] (fr_parts k) (frame_order k) data) /\
  ~ (frame_complete k data /\ frame_malformed k data) /\ ~ (frame_incomplete k data /\ frame_malformed k data).
Proof.
  intros E path k toks data HS LB UL TB DF. destruct (frame_wire E path k toks HS LB UL TB) as (im & pr & id & _ & _ & _ & IB & _).
  destruct (frame_plain E path k toks id HS UL IB) as (MP & _). split; [|split; [|split]].
  - intros (A & B). exact (complete_sound id _ k data MP DF A B).
  - intros (A & B). exact (complete_whole id _ k data MP DF A B).
  - intros ((gs & rest & K & ED) & M). apply (M [] gs rest K). now rewrite app_nil_r.
  - intros ((more & gs & NE & K & EM) & M). apply (M more gs [] K). now rewrite app_nil_r.
Qed.
Print Assumptions C79_exclusive.

Definition src79 : string :=
  "struct Item { bool on; @be u16 v; }
   packet F { u8 ver : 4; i8 dir : 4; @add(5) u8 x; Item it; @crc(16) u16 sum; u8 tail; }".
Definition frame79 : frame := {| fr_structs := [(chars "Item", item60)]; fr_orders := []; fr_name := chars "F";
  fr_parts := [Bits [Bit false 4 (chars "ver"); Bit true 4 (chars "dir")]; Numeric [NAdd 5] 0x10 (chars "x"); Member (Nest [] One (chars "it") item60);
    Check [CWidth false] (chars "sum"); Numeric [] 0x10 (chars "tail")] |}.
(** Version 10, direction -7, x shown as 7, an item, its checksum (that of binascii.crc_hqx) and a last byte *)
Definition given79 : list given := [Nums [10; 2 ^ 64 - 7]; Stored 2; Tree (Groups [[one 1; one 0x304]]); Auto; Stored 7].
Example C79_reads_nonvacuous :
  holds_frame (file src79) [] frame79 (toks_of src79) /\
  Forall (fun n => lenN n <= 255) (frame_all frame79) /\ lenN (frame_names frame79) = 8 /\ 16 + table_bytes (frame_names frame79) < 2 ^ 32 /\
  Forall (fun p => part_depth p <= 8) (fr_parts frame79) /\ Forall (part_definite 8) (fr_parts frame79) /\ settled (fr_parts frame79) /\ listens quiet /\
  Forall2 part_ok (fr_parts frame79) given79 /\ frame_bytes frame79 given79 = [0x9A; 2; 1; 3; 4; 167; 190; 7] /\
  (* the message and two more bytes *)
  listened src79 [0x9A; 2; 1; 3; 4; 167; 190; 7; 9; 9] = Some (EOk, 8 * 8) /\
  (* cut off behind the bit fields, inside the item, inside the checksum, behind the checksum *)
  listened src79 [0x9A] = Some (EOob, 8 * 1) /\ listened src79 [] = Some (EOob, 0) /\
  listened src79 [0x9A; 2; 1; 3] = Some (EOob, 8 * 3) /\
  listened src79 [0x9A; 2; 1; 3; 4; 167] = Some (EOob, 8 * 5) /\
  listened src79 [0x9A; 2; 1; 3; 4; 167; 190] = Some (EOob, 8 * 7) /\
  (* with a boolean that is neither 0 nor 1 *)
  listened src79 [0x9A; 2; 2; 3; 4; 167; 190; 7] = Some (EValidation, 8 * 2) /\
  (* and with one bit of the version damaged *)
  option_map fst (listened src79 [0x9B; 2; 1; 3; 4; 167; 190; 7]) = Some ECrc.
Proof.
  split.
  { assert (L4 : literal (chars "4") 4) by (apply (lit_dec _ [4]); repeat constructor).
    assert (L5 : int_text (chars "5") 5) by (apply (it_plus _ 5), (lit_dec _ [5]); repeat constructor).
    assert (L16 : literal (chars "16") 16) by (apply (lit_dec _ [1; 6]); repeat constructor).
    exists (chars src79), (removelast (map word_of (toks_of src79))). split; [reflexivity|]. split; [vm_compute; reflexivity|]. split; [vm_compute; reflexivity|].
    eexists _, [], _. split; [|split; [constructor|split; [|split; [|split]]]].
    - eapply structs_more with (sc := []).
      + eapply members_more; [apply flat_read; eexists [], _, _; split; [constructor|]; split; [apply (read_one 0x1A "bool"); member|reflexivity]|]. eapply members_more; [|apply members_none].
        apply flat_read. eexists [sign TAt "@"; ident "be"], _, _. split; [apply ord_more; [member|constructor]|]. split; [apply (read_one 0x11 "u16"); member|reflexivity].
      + intros [].
      + vm_compute. intuition discriminate.
      + vm_compute. repeat constructor; cbn; intuition discriminate.
      + now left.
      + apply structs_none.
    - eapply several_more; [apply read_run|].
      { eapply several_more; [apply (read_bit 0x10 "u8" false 4 (chars "ver") (chars "4")); [member|member|exact L4|split; discriminate]|].
        eapply several_more; [apply (read_bit 0x14 "i8" true 4 (chars "dir") (chars "4")); [member|member|exact L4|split; discriminate]|]. apply several_none. }
      eapply several_more; [eapply (read_number _ _ _ _ _ _ "u8"); [|vm_compute; congruence|member]|].
      { eapply several_more; [apply (read_nadd _ 5 (chars "5") L5)|apply several_none]. }
      eapply several_more; [apply read_member, (nest_read _ [] [] One); [constructor|now left|constructor]|].
      eapply several_more; [eapply (read_check _ _ _ _ _ false "u16"); [|reflexivity|member]|].
      { eapply several_more; [apply (read_cwidth false (chars "16")); exact L16|]. apply several_none. }
      eapply several_more; [eapply (read_number _ _ _ _ _ _ "u8"); [|vm_compute; congruence|member]|apply several_none]. apply several_none.
    - vm_compute. intuition discriminate.
    - vm_compute. repeat constructor; cbn; intuition discriminate.
    - vm_compute. reflexivity. }
  split; [vm_compute; repeat constructor; discriminate|]. split; [vm_compute; reflexivity|]. split; [vm_compute; reflexivity|].
  split; [vm_compute; repeat constructor; discriminate|]. split.
  { constructor; [split; [repeat constructor|reflexivity]|]. constructor.
    { apply (shown_add _ _ 5); [intros [X|[]]; discriminate|reflexivity|discriminate|vm_compute; intuition discriminate|].
      intros raw K. apply proj1 in K. change (raw < 256) in K. change (0 <= Z.of_N raw <= 255)%Z. Lia.lia. }
    constructor; [vm_compute; intuition discriminate|]. constructor; [exact Logic.I|]. constructor; [|constructor].
    split; [intros []|]. intros raw _. exists raw. reflexivity. }
  split; [repeat split|]. split; [intros h rq; repeat split|]. split; [repeat constructor; vm_compute; intuition discriminate|]. repeat split; vm_compute; reflexivity.
Qed.

(** *** Where it fails *)

(** Full property: the conclusion of [C79_reads_partial] for every packet of C59.  It fails for runs of bit fields at the end, and for padding.

    Bits are read without a look at the end of the data: of a packet that is cut off, the fields that did not arrive are reported as 0,
    and decoding succeeds. *)
Definition src79b : string := "packet P { u8 a : 4; u8 b : 4; }".
Definition frame79b : frame := {| fr_structs := []; fr_orders := []; fr_name := chars "P"; fr_parts := [Bits [Bit false 4 (chars "a"); Bit false 4 (chars "b")]] |}.
Theorem C79_refuted_cut_bits : listened src79b [] = Some (EOk, 0) /\ frame_incomplete frame79b [] /\ ~ frame_complete frame79b [].
Proof.
  split; [vm_compute; reflexivity|]. split.
  - exists [0], [Nums [0; 0]]. split; [discriminate|]. split; [repeat constructor|vm_compute; reflexivity].
  - intros (gs & rest & K & E). inversion K as [|? g ? r A B]; subst. inversion B; subst. destruct g as [|[|v [|w [|? ?]]]| | |]; cbn in A; try tauto. vm_compute in E. discriminate.
Qed.
Print Assumptions C79_refuted_cut_bits.
(** The bits of padding are not looked at: bytes that no message begins with are accepted. *)
Definition src79p : string := "packet P { u8 a : 4; @pad(4); u8 x; }".
Definition frame79p : frame := {| fr_structs := []; fr_orders := []; fr_name := chars "P"; fr_parts := [Bits [Bit false 4 (chars "a"); Pad 4]; Numeric [] 0x10 (chars "x")] |}.
Theorem C79_refuted_padding : listened src79p [0xF5; 1] = Some (EOk, 8 * 2) /\ frame_malformed frame79p [0xF5; 1].
Proof.
  split; [vm_compute; reflexivity|]. intros more gs rest K E. inversion K as [|? g ? r A B]; subst. inversion B as [|? g' ? r' A' B']; subst. inversion B'; subst.
  destruct g as [|[|v [|? ?]]| | |]; cbn [part_ok bits_ok] in A; try tauto. destruct A as ((A & _) & _). change (v < 16) in A.
  destruct g'; cbn [part_ok] in A'; try tauto.
  apply (f_equal (hd 0)) in E. change (hd 0 ([0xF5; 1] ++ more)) with 245 in E.
  destruct v as [|[[[[]|[]|]|[[]|[]|]|]|[[[]|[]|]|[[]|[]|]|]|]]; try Lia.lia; vm_compute in E; discriminate.
Qed.
Print Assumptions C79_refuted_padding.
(** And padding that did not arrive is not missed: the position is behind the end of the data, and decoding succeeds. *)
Theorem C79_refuted_pad_past_end : listened "packet P { u8 x; @pad(8); }" [1] = Some (EOk, 16).
Proof. vm_compute. reflexivity. Qed.
Print Assumptions C79_refuted_pad_past_end.
