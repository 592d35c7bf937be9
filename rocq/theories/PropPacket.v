(** C32, C46, C49: what the compiler makes of packets, its byte orders, and the verifier on its output. *)
From Coq Require Import Strings.String.
From Verif Require Import Base SpecBytes ModelWord ModelFloat ModelTrans ModelVM SpecVM ModelText SpecText ModelParse ModelSchema
  ModelImage SpecImage LemImage ModelVerify SpecParse LemParse SpecNames SpecPacket LemPacket LemSend LemAccept SpecMessage LemMessage Samples.

(** ** C49 Compiled packets *)

(** A file with a packet of plain fields is compiled, without an error, to an image whose names are those of the packet and
    whose code is the packet's instructions. *)
Theorem C49_compiles : forall E path k toks, holds_packet E path k toks -> lenN (pk_names k) <= 65536 ->
  exists names, NoDup names /\ (forall s, In s names <-> In s (pk_names k)) /\
    forall fuel, (length toks < fuel)%nat ->
      compile_file E fuel path = CImage (image names (code (packet_instrs (index_of names) k))).
Proof. exact compile_held. Qed.
Print Assumptions C49_compiles.

(** From the source to the wire: the image of a packet of plain fields loads, under the names of the packet. Encoding with it asks
    the host for the fields in order and writes the bytes of their values one after another; decoding such a message reports
    them. *)
Theorem C49_source_to_wire_partial : forall E path k toks,
  holds_packet E path k toks -> lenN (pk_names k) <= 65535 -> 16 + table_bytes (pk_names k) < 2 ^ 32 ->
  exists im pr id, (forall fuel, (length toks < fuel)%nat -> compile_file E fuel path = CImage im) /\
    load_il im = Ok (Loaded pr) /\
    (forall n, In n (pk_names k) -> exists p, get_key_name im pr (id n) = Ok (Some p) /\ string_at im p n) /\
    forall ds, Forall2 (fun f d => datum_ok (f_content f) d) (pk_fields k) ds -> skips_well (pk_names k) ds ->
    let bc := sub im (pr_bytecode pr) (pr_bytecode_len pr) in
    let msg := wire (orders_from (packet_order k) (pk_fields k)) (pk_fields k) ds in
    (forall H (host : H -> request -> H * reply) lm data h t h', wf_bytes data -> lenN msg <= lenN data ->
      gives_fields id 0 data (pk_fields k) ds t -> plays host h t h' ->
      exists s' n, (forall fuel, (n <= fuel)%nat -> run host lm bc fuel (init Enc data) h = (Done EOk s', h', t)) /\
        buf s' = msg ++ skipn (N.to_nat (lenN msg)) data /\ position s' = 8 * lenN msg) /\
    (forall H (host : H -> request -> H * reply) lm rest h t h', wf_bytes rest ->
      told_fields id 0 (pk_fields k) ds t -> plays host h t h' ->
      exists s' n, (forall fuel, (n <= fuel)%nat -> run host lm bc fuel (init Dec (msg ++ rest)) h = (Done EOk s', h', t)) /\
        buf s' = msg ++ rest /\ position s' = 8 * lenN msg).
Proof.
  intros E path k toks HP LN TB. destruct (packet_wire E path k toks HP LN TB) as (im & pr & id & C & L & NM & IB & BC).
  exists im, pr, id. split; [exact C|]. split; [exact L|]. split; [exact NM|]. intros ds DO SK. cbv zeta. rewrite BC.
  assert (FB : forall b, lenN (pk_names k) <= b -> Forall (fun f => id (f_name f) < b) (pk_fields k)).
  { intros b LB. apply Forall_forall. intros f I. enough (id (f_name f) < lenN (pk_names k)) by Lia.lia. apply IB. unfold pk_names. apply in_or_app. left. now apply in_map. }
  assert (FC : Forall (fun f => content_wf (f_content f)) (pk_fields k)).
  { destruct HP as (src & ws & _ & _ & _ & (os & fw & _ & FR & _) & _). eapply fields_wf; eauto. }
  split; intros.
  - eapply encode_plain; eauto. apply FB. Lia.lia.
  - eapply decode_plain; eauto. apply FB. Lia.lia.
Qed.
Print Assumptions C49_source_to_wire_partial.

(** A file system with one file *)
Definition file (s : string) : env := {| e_strtod := fun _ => 0; e_read := fun _ => Some (chars s); e_canon := fun x => x |}.
Definition src49 : string :=
  "// A message
   @big_endian packet Msg { uint16 id; @le @be u32 seq; i64 at; float xs[3]; byte raw[] prefix u16; string s max 32; string t prefix uint8; }".
Definition plain49 (l : list bool) (c : content) (s : string) : field := {| f_orders := l; f_content := c; f_name := chars s |}.
Definition packet49 : packet := {| pk_orders := [true]; pk_name := chars "Msg";
  pk_fields := [plain49 [] (Scalar 0x11 One) "id"; plain49 [false; true] (Scalar 0x12 One) "seq"; plain49 [] (Scalar 0x17 One) "at";
    plain49 [] (Scalar 0x18 (Fixed 3)) "xs"; plain49 [] (Scalar 0x10 (Counted 2)) "raw"; plain49 [] (Text 32) "s";
    plain49 [] (CountedText 1) "t"] |}.
Definition toks_of (s : string) : list token := match lex (chars s) with Some l => l | None => [] end.
Ltac member := vm_compute; tauto.
Example C49_compiles_nonvacuous : holds_packet (file src49) [] packet49 (toks_of src49).
Proof.
  assert (L3 : literal (chars "3") 3) by (apply (lit_dec _ [3]); repeat constructor).
  assert (L32 : literal (chars "32") 32) by (apply (lit_dec _ [3; 2]); repeat constructor).
  assert (N : forall c s a b, content_read c a b -> field_read (plain49 [] c s) (a ++ [(TIdentifier, chars s)] ++ b ++ [sign TSemicolon ";"])).
  { intros. exists [], a, b. split; [constructor|]. split; auto. }
  exists (chars src49), (removelast (map word_of (toks_of src49))). split; [reflexivity|]. split; [vm_compute; reflexivity|].
  split; [vm_compute; reflexivity|]. split.
  - eexists [sign TAt "@"; ident "big_endian"], _. split; [apply ord_more; [member|constructor]|]. split.
    + eapply fields_more; [apply N; apply (read_one 0x11 "uint16"); member|].
      eapply fields_more.
      { eexists [sign TAt "@"; ident "le"; sign TAt "@"; ident "be"], _, _.
        split; [apply ord_more; [member|apply ord_more; [member|constructor]]|]. split; [apply (read_one 0x12 "u32"); member|reflexivity]. }
      eapply fields_more; [apply N; apply (read_one 0x17 "i64"); member|].
      eapply fields_more; [apply N; apply (read_fixed 0x18 "float"); [member|exact L3|reflexivity]|].
      eapply fields_more; [apply N; apply (read_counted 0x10 "byte" 2 "u16"); member|].
      eapply fields_more; [apply N; apply (read_text_max _ _ L32); reflexivity|].
      eapply fields_more; [apply N; apply (read_text_counted 1 "uint8"); member|]. apply fields_none.
    + vm_compute. reflexivity.
  - vm_compute. repeat constructor; cbn; intuition discriminate.
Qed.
Definition src49w : string := "packet Msg { u16 id; @be u32 seq; i8 at; }".
Definition packet49w : packet := {| pk_orders := []; pk_name := chars "Msg";
  pk_fields := [plain49 [] (Scalar 0x11 One) "id"; plain49 [true] (Scalar 0x12 One) "seq"; plain49 [] (Scalar 0x14 One) "at"] |}.
(** A host that answers from a list *)
Definition actor (l : list reply) (_ : request) : list reply * reply := match l with [] => ([], nod) | r :: l' => (l', r) end.
Definition data49 : list datum :=
  [Value 0x102; Value 0x3040506; Value (2 ^ 64 - 2); Values [0x3F800000; 0; 0x40490FDB]; Values [7; 8]; Characters (chars "hi"); Characters []].
Definition msg49 : list N :=
  [1; 2] ++ [3; 4; 5; 6] ++ [0xFE; 0xFF; 0xFF; 0xFF; 0xFF; 0xFF; 0xFF; 0xFF] ++ [0; 0; 0x80; 0x3F; 0; 0; 0; 0; 0xDB; 0x0F; 0x49; 0x40] ++
  [2; 0; 7; 8] ++ [104; 105; 0] ++ [0].
Example C49_wire_nonvacuous :
  lenN (pk_names packet49) <= 52 /\ Forall2 (fun f d => datum_ok (f_content f) d) (pk_fields packet49) data49 /\ skips_well (pk_names packet49) data49 /\
  wire (orders_from (packet_order packet49) (pk_fields packet49)) (pk_fields packet49) data49 = msg49 /\
  (exists t, gives_fields (index_of (pk_names packet49)) 0 (repeat 0 40) (pk_fields packet49) data49 t /\
     plays actor [say 0x102; say 0x3040506; say (2 ^ 64 - 2); nod; say 0x3F800000; say 0; say 0x40490FDB; nod; say 2;
       {| r_ok := true; r_val := None; r_str := None; r_bytes := [7; 8] |}; say_str (chars "hi"); say_str []] t []) /\
  (exists t, told_fields (index_of (pk_names packet49)) 0 (pk_fields packet49) data49 t /\
     plays actor [nod; nod; nod; nod; nod; nod; nod; nod; nod; refuse; nod; nod; nod; nod; nod] t []).
Proof.
  split; [discriminate|]. split; [|split; [intros I; vm_compute; discriminate|split; [vm_compute; reflexivity|split]]].
  - repeat constructor; vm_compute; easy.
  - eexists. split.
    + eapply gf_more; [eapply give_one with (r := say 0x102); reflexivity|]. eapply gf_more; [eapply give_one with (r := say 0x3040506); reflexivity|].
      eapply gf_more; [eapply give_one with (r := say (2 ^ 64 - 2)); reflexivity|].
      eapply gf_more.
      { eapply give_fixed with (r := nod); [reflexivity|reflexivity|]. eapply all_singly with (r := nod); [discriminate|unfold byte_type; Lia.lia| |reflexivity].
        eapply each_more with (r := say 0x3F800000); [reflexivity|reflexivity|]. eapply each_more with (r := say 0); [reflexivity|reflexivity|].
        eapply each_more with (r := say 0x40490FDB); [reflexivity|reflexivity|]. apply each_none. }
      eapply gf_more; [eapply give_counted with (r := say 2); [reflexivity|reflexivity|];
        eapply all_at_once with (r := {| r_ok := true; r_val := None; r_str := None; r_bytes := [7; 8] |}); [discriminate|left; reflexivity|reflexivity|reflexivity]|].
      eapply gf_more; [apply (give_text _ _ _ 32 (chars "hi") (say_str (chars "hi"))); [reflexivity|reflexivity|vm_compute; repeat constructor]|].
      eapply gf_more; [apply (give_counted_text _ _ _ 1 [] (say_str [])); [reflexivity|reflexivity|constructor]|]. apply gf_none.
    + cbn [app]. repeat (eapply plays_more; [reflexivity|]). apply plays_none.
  - eexists. split.
    + eapply tf_more; [eapply tell_one with (r := nod); reflexivity|]. eapply tf_more; [eapply tell_one with (r := nod); reflexivity|]. eapply tf_more; [eapply tell_one with (r := nod); reflexivity|].
      eapply tf_more.
      { eapply tell_fixed with (r := nod); [reflexivity|reflexivity|]. eapply tall_singly with (r := nod); [discriminate|unfold byte_type; Lia.lia| |reflexivity].
        eapply told_more with (r := nod); [reflexivity|]. eapply told_more with (r := nod); [reflexivity|]. eapply told_more with (r := nod); [reflexivity|]. apply told_none. }
      eapply tf_more.
      { eapply tell_counted with (r := nod); [reflexivity|reflexivity|]. eapply tall_refused with (r := refuse) (r' := nod); [discriminate|left; reflexivity|reflexivity|reflexivity| |reflexivity].
        eapply told_more with (r := nod); [reflexivity|]. eapply told_more with (r := nod); [reflexivity|]. apply told_none. }
      eapply tf_more; [eapply tell_text with (r := nod); reflexivity|]. eapply tf_more; [eapply tell_counted_text with (r := nod); reflexivity|]. apply tf_none.
    + cbn [app]. repeat (eapply plays_more; [reflexivity|]). apply plays_none.
Qed.

(** ** C46 Byte orders *)

(** Full property: a decorator selects its field's byte order, and the other fields are as documented: "@big_endian/@be: sets
    byte order to big endian for following fields", likewise "@little_endian/@le" (docs/SPEC.md).

    Proved: where the file does not set big endian, every field of a compiled packet is written in the order its own decorators
    ask for, little endian without one. *)
Theorem C46_own_order_partial : forall H (host : H -> request -> H * reply) lm id k ws data ds h t h',
  packet_order k = LE -> fields_read (pk_fields k) ws -> Forall (fun f => id (f_name f) < 52) (pk_fields k) ->
  Forall2 (fun f d => datum_ok (f_content f) d) (pk_fields k) ds -> wf_bytes data ->
  gives_fields id 0 data (pk_fields k) ds t -> plays host h t h' ->
  let msg := wire (map field_order (pk_fields k)) (pk_fields k) ds in lenN msg <= lenN data ->
  exists s' n, (forall fuel, (n <= fuel)%nat ->
      run host lm (code (packet_instrs id k)) fuel (init Enc data) h = (Done EOk s', h', t)) /\
    buf s' = msg ++ skipn (N.to_nat (lenN msg)) data /\ position s' = 8 * lenN msg.
Proof.
  intros H host lm id k ws data ds h t h' O FR FK DO WD G PL. assert (M : orders_from LE (pk_fields k) = map field_order (pk_fields k)).
  { clear. induction (pk_fields k) as [|f l IH]; [reflexivity|]. cbn [orders_from map]. rewrite <- IH. unfold field_order. now destruct (f_big f). }
  rewrite <- M, <- O. intros msg L. eapply encode_plain; eauto.
  - eapply fields_wf; eauto.
  - eapply Forall_impl; [|exact FK]. cbv beta. intros; Lia.lia.
Qed.
Print Assumptions C46_own_order_partial.
(** Also proved: in a big-endian file where no field asks for big endian itself, every field is big endian. *)
Theorem C46_big_endian_partial : forall H (host : H -> request -> H * reply) lm id k ws data ds h t h',
  packet_order k = BE -> Forall (fun f => f_big f = false) (pk_fields k) ->
  fields_read (pk_fields k) ws -> Forall (fun f => id (f_name f) < 52) (pk_fields k) ->
  Forall2 (fun f d => datum_ok (f_content f) d) (pk_fields k) ds -> wf_bytes data ->
  gives_fields id 0 data (pk_fields k) ds t -> plays host h t h' ->
  let msg := wire (map (fun _ => BE) (pk_fields k)) (pk_fields k) ds in lenN msg <= lenN data ->
  exists s' n, (forall fuel, (n <= fuel)%nat ->
      run host lm (code (packet_instrs id k)) fuel (init Enc data) h = (Done EOk s', h', t)) /\
    buf s' = msg ++ skipn (N.to_nat (lenN msg)) data /\ position s' = 8 * lenN msg.
Proof.
  intros H host lm id k ws data ds h t h' O FB FR FK DO WD G PL. assert (M : orders_from BE (pk_fields k) = map (fun _ => BE) (pk_fields k)).
  { clear - FB. induction FB as [|f l B F IH]; [reflexivity|]. cbn [orders_from map]. now rewrite B, IH. }
  rewrite <- M, <- O. intros msg L. eapply encode_plain; eauto.
  - eapply fields_wf; eauto.
  - eapply Forall_impl; [|exact FK]. cbv beta. intros; Lia.lia.
Qed.
Print Assumptions C46_big_endian_partial.

(** The wire of a source: compiled, loaded, and encoded with a host that gives the values *)
Definition wire_of (s : string) (vs : list N) (room : N) : option (list N) :=
  match compile_file (file s) 300 [] with
  | CImage im => match load_il im with
    | Ok (Loaded pr) => match run script lm0 (sub im (pr_bytecode pr) (pr_bytecode_len pr)) 300 (init Enc (repeat 0 (N.to_nat room))) (map say vs) with
      | (Done EOk s, _, _) => Some (buf s)
      | _ => None
      end
    | _ => None
    end
  | _ => None
  end.
(** A field marked little endian in a big-endian file is big endian. *)
Theorem C46_refuted_own_order : wire_of "@big_endian packet P { @le uint16 a; }" [1] 2 = Some (bytes_of BE 2 1).
Proof. vm_compute. reflexivity. Qed.
Print Assumptions C46_refuted_own_order.
(** After a field marked big endian in a big-endian file the rest is little endian. *)
Theorem C46_refuted_file_order : wire_of "@big_endian packet P { uint16 a; @be uint16 b; uint16 c; }" [1; 1; 1] 6 =
  Some (bytes_of BE 2 1 ++ bytes_of BE 2 1 ++ bytes_of LE 2 1).
Proof. vm_compute. reflexivity. Qed.
Print Assumptions C46_refuted_file_order.
(** The order does not extend to the following fields. *)
Theorem C46_refuted_following : wire_of "packet P { @be uint16 a; uint16 b; }" [1; 1] 4 = Some (bytes_of BE 2 1 ++ bytes_of LE 2 1).
Proof. vm_compute. reflexivity. Qed.
Print Assumptions C46_refuted_following.
(** "@be" in front of a packet is accepted and has no effect, though "@le" and "@big_endian" have. *)
Theorem C46_refuted_top : wire_of "@be packet P { uint16 a; }" [1] 2 = Some (bytes_of LE 2 1) /\
  wire_of "@big_endian packet P { uint16 a; }" [1] 2 = Some (bytes_of BE 2 1) /\
  wire_of "@big_endian @le packet P { uint16 a; }" [1] 2 = Some (bytes_of LE 2 1).
Proof. repeat split; vm_compute; reflexivity. Qed.
Print Assumptions C46_refuted_top.

Example C46_nonvacuous : packet_order packet49w = LE /\ map field_order (pk_fields packet49w) = [LE; BE; LE] /\
  wire_of src49w [0x102; 0x3040506; 0xFF] 8 = Some [2; 1; 3; 4; 5; 6; 0xFF; 0] /\
  packet_order packet49 = BE /\ orders_from BE (pk_fields packet49) = [BE; BE; LE; LE; LE; LE; LE].
Proof. repeat split; vm_compute; reflexivity. Qed.

(** ** C49 again: empty arrays in packets with many names *)

(** A packet of 52 bytes, an array and a last byte: with the array empty, the number of its name (52) is taken for the opening of a
    loop when the element code is skipped, and the rest of the packet with it: the last byte is neither asked for nor written. *)
Definition src49m : list N := chars "packet P {" ++
  flat_map (fun i => chars "uint8 f" ++ [97 + i / 26; 97 + i mod 26] ++ chars "; ") (map N.of_nat (seq 0 52)) ++ chars "uint8 xs[] prefix uint8; uint8 last; }".
Definition encoded (src : list N) (vs : list N) (room : N) : option (list N * N * N) :=
  match compile_file {| e_strtod := fun _ => 0; e_read := fun _ => Some src; e_canon := fun x => x |} 300 [] with
  | CImage im => match load_il im with
    | Ok (Loaded pr) => match run script lm0 (sub im (pr_bytecode pr) (pr_bytecode_len pr)) 300 (init Enc (repeat 0 (N.to_nat room))) (map say vs) with
      | (Done EOk s, _, t) => Some (buf s, position s, lenN t)
      | _ => None
      end
    | _ => None
    end
  | _ => None
  end.
Theorem C49_refuted_empty_array :
  encoded src49m (repeat 1 52 ++ [0; 1]) 60 = Some (repeat 1 52 ++ repeat 0 8, 8 * 53, 53) /\
  encoded src49m (repeat 1 52 ++ [1; 1; 1]) 60 = Some (repeat 1 52 ++ [1; 0; 1] ++ repeat 0 5, 8 * 55, 55).
Proof. split; vm_compute; reflexivity. Qed.
Print Assumptions C49_refuted_empty_array.

(** ** C32 The verifier on compiled programs *)

(** Full property: every program the compiler produces is accepted.

    Proved: packets of at most five plain fields (integers, floats, booleans, arrays of them, strings; any byte orders). *)
Theorem C32_small_packets_partial : forall E path k toks, holds_packet E path k toks -> lenN (pk_fields k) <= 5 ->
  exists names bc, (forall fuel, (length toks < fuel)%nat -> compile_file E fuel path = CImage (image names bc)) /\
    (lenN bc < 2 ^ 32 - 32 -> forall fuel, lenN bc < N.of_nat fuel -> verify fuel bc = Verdict EOk).
Proof.
  intros E path k toks HP L. assert (LN : lenN (pk_names k) <= 6).
  { unfold pk_names, lenN in *. rewrite app_length, map_length. cbn [length]. Lia.lia. }
  destruct (compile_held E path k toks HP ltac:(Lia.lia)) as (names & ND & IN & C).
  exists names, (code (packet_instrs (index_of names) k)). split; [exact C|]. intros LB fuel LF.
  apply accept_packet; auto.
  - destruct HP as (src & ws & _ & _ & _ & (os & fw & _ & FR & _) & _). eapply fields_ok; eauto.
  - pose proof (proj1 (fewer_bytes names ND (pk_names k) ltac:(intros x I; now apply IN))).
    assert (I : In (pk_name k) names) by (apply IN; unfold pk_names; apply in_or_app; right; left; auto).
    pose proof (index_bound names _ I). Lia.lia.
Qed.
Print Assumptions C32_small_packets_partial.

(** The verdict on the compiled source *)
Definition verdict_of (s : string) : option verdict :=
  match compile_file (file s) 300 [] with
  | CImage im => match load_il im with
    | Ok (Loaded pr) => Some (verify 1000 (sub im (pr_bytecode pr) (pr_bytecode_len pr)))
    | _ => None
    end
  | _ => None
  end.
(** The name instruction is taken for one byte, so the number of the packet's name is looked up as an instruction: eight fields
    are enough. *)
Theorem C32_refuted_eight_fields :
  verdict_of "packet P { uint8 a; uint8 b; uint8 c; uint8 d; uint8 e; uint8 f; uint8 g; uint8 h; }" = Some (Verdict EInvalidOp).
Proof. vm_compute. reflexivity. Qed.
Print Assumptions C32_refuted_eight_fields.
(** Ranges, constants, enumerations and checksums *)
Theorem C32_refuted_fields :
  verdict_of "packet P { @range(1, 4) uint8 a; }" = Some (Verdict EOob) /\
  verdict_of "packet P { @const(2) uint8 a; }" = Some (Verdict EOob) /\
  verdict_of "enum E : uint8 { A, B } packet P { E a; }" = Some (Verdict EInvalidOp) /\
  verdict_of "packet P { @crc(32) uint32 a; }" = Some (Verdict EInvalidOp).
Proof. repeat split; vm_compute; reflexivity. Qed.
Print Assumptions C32_refuted_fields.
(** A conditional at the end, whose jump leads to the end of the code; a switch, whose table is read as instructions *)
Theorem C32_refuted_control :
  verdict_of "packet P { uint8 a; if (a > 3) { uint8 b; } }" = Some (Verdict EOob) /\
  verdict_of "packet P { uint8 a; switch (a) { case 1: uint8 b; default: uint8 c; } uint8 d; }" = Some (Verdict EInvalidOp).
Proof. repeat split; vm_compute; reflexivity. Qed.
Print Assumptions C32_refuted_control.
Example C32_nonvacuous : lenN (pk_fields packet49w) <= 5 /\ verdict_of src49w = Some (Verdict EOk) /\
  verdict_of "packet P { uint8 a; if (a > 3) { uint8 b; } uint8 c; }" = Some (Verdict EOk).
Proof. split; [discriminate|]. split; vm_compute; reflexivity. Qed.
