(** C74: arrays counted by another field, and arrays that fill the rest of the message. *)
From Coq Require Import Strings.String.
From Verif Require Import Base SpecBytes ModelWord ModelFloat ModelTrans ModelVM SpecVM ModelText SpecText ModelParse ModelSchema
  ModelImage SpecImage LemImage SpecParse LemParse SpecNames SpecPacket SpecMessage LemMessage PropPacket Samples SpecArrays LemArrays LemArraysRun.

(** ** C74 Counted arrays and arrays to the end *)

(** A file with a packet of plain fields and such arrays is compiled, without an error, to an image whose names are those the
    packet mentions and whose code is the packet's instructions. *)
Theorem C74_compiles : forall E path k toks, holds_lists E path k toks -> lenN (ls_names k) <= 65536 ->
  exists names, NoDup names /\ (forall s, In s names <-> In s (ls_names k)) /\
    forall fuel, (List.length toks < fuel)%nat ->
      compile_file E fuel path = CImage (image names (code (lists_instrs (index_of names) k))).
Proof.
  intros E path k toks HP LN. pose proof (lists_text E path k toks HP) as TX. destruct HP as (src & ws & RD & LX & M & PR & ND).
  eapply compile_lists; eauto.
Qed.
Print Assumptions C74_compiles.

(** Full property: the image loads under the names of the packet. Encoding with it asks the host for the fields in order (for a
    counted array: for the value of the counting field, then for that many values; for an array to the end: for its values) and
    writes the bytes of their values one after another. Decoding such a message reports them.

    Missing: empty arrays in packets of more than 52 names (see C49_refuted_empty_array), arrays to the end that are not the last
    field, and encoding an array to the end into a buffer longer than the message, where the property fails (below). *)
Theorem C74_source_to_wire_partial : forall E path k toks,
  holds_lists E path k toks -> lenN (ls_names k) <= 65535 -> 16 + table_bytes (ls_names k) < 2 ^ 32 -> rest_last (ls_items k) ->
  exists im pr id, (forall fuel, (List.length toks < fuel)%nat -> compile_file E fuel path = CImage im) /\
    load_il im = Ok (Loaded pr) /\
    (forall n, In n (ls_names k) -> exists p, get_key_name im pr (id n) = Ok (Some p) /\ string_at im p n) /\
    forall ds, Forall2 (fun i d => item_ok (i_what i) d) (ls_items k) ds -> skips_well (ls_names k) ds ->
    let bc := sub im (pr_bytecode pr) (pr_bytecode_len pr) in
    let msg := lists_bytes k ds in
    (forall H (host : H -> request -> H * reply) lm data h t h', wf_bytes data -> lenN msg <= lenN data ->
      (has_rest (ls_items k) -> lenN msg = lenN data) ->
      gives_items id 0 data (ls_items k) ds t -> plays host h t h' ->
      exists s' n, (forall fuel, (n <= fuel)%nat -> run host lm bc fuel (init Enc data) h = (Done EOk s', h', t)) /\
        buf s' = msg ++ skipn (N.to_nat (lenN msg)) data /\ position s' = 8 * lenN msg) /\
    (forall H (host : H -> request -> H * reply) lm rest h t h', wf_bytes rest -> (has_rest (ls_items k) -> rest = []) ->
      told_items id 0 (ls_items k) ds t -> plays host h t h' ->
      exists s' n, (forall fuel, (n <= fuel)%nat -> run host lm bc fuel (init Dec (msg ++ rest)) h = (Done EOk s', h', t)) /\
        buf s' = msg ++ rest /\ position s' = 8 * lenN msg).
Proof.
  intros E path k toks HP LN TB RL. destruct (lists_wire E path k toks HP LN TB) as (im & pr & id & C & L & NM & IB & BC).
  exists im, pr, id. split; [exact C|]. split; [exact L|]. split; [exact NM|]. intros ds DO SK. cbv zeta. rewrite BC.
  assert (FB : forall b, lenN (ls_names k) <= b -> Forall (named_below id b) (ls_items k)).
  { intros b LB. apply Forall_forall. intros i I n J. enough (id n < lenN (ls_names k)) by Lia.lia. apply IB. unfold ls_names. apply in_or_app. left.
    apply in_flat_map. eauto. }
  assert (FC : Forall (fun i => what_fits (i_what i)) (ls_items k)).
  { destruct HP as (src & ws & _ & _ & _ & (os & fw & _ & FR & _) & _). eapply items_read_fits; eauto. }
  split; intros.
  - eapply encode_lists; eauto. apply FB. Lia.lia.
  - eapply decode_lists; eauto. apply FB. Lia.lia.
Qed.
Print Assumptions C74_source_to_wire_partial.

Definition src74 : string := "packet Log { uint8 n; u8 kind; @be @count(n) u16 xs[]; @eof u32 rest[]; }".
Definition item74 (l : list bool) (w : what) (s : string) : item := {| i_orders := l; i_what := w; i_name := chars s |}.
Definition lists74 : lists := {| ls_orders := []; ls_name := chars "Log";
  ls_items := [item74 [] (Plain (Scalar 0x10 One)) "n"; item74 [] (Plain (Scalar 0x10 One)) "kind";
    item74 [true] (Listed (chars "n") 0x11) "xs"; item74 [] (Rest 0x12) "rest"] |}.
Example C74_compiles_nonvacuous : holds_lists (file src74) [] lists74 (toks_of src74) /\ rest_last (ls_items lists74) /\ has_rest (ls_items lists74).
Proof.
  split; [|split; [cbn; intuition (try discriminate); destruct H; discriminate|do 3 apply Exists_cons_tl; apply Exists_cons_hd; now exists 0x12]].
  exists (chars src74), (removelast (map word_of (toks_of src74))). split; [reflexivity|]. split; [vm_compute; reflexivity|].
  split; [vm_compute; reflexivity|]. split.
  - eexists [], _. split; [constructor|]. split.
    + eapply items_more; [apply item_plain; eexists [], _, _; split; [constructor|]; split; [apply (read_one 0x10 "uint8"); member|reflexivity]|].
      eapply items_more; [apply item_plain; eexists [], _, _; split; [constructor|]; split; [apply (read_one 0x10 "u8"); member|reflexivity]|].
      eapply items_more; [apply (item_listed [true] [] [sign TAt "@"; ident "be"] [] "count" (chars "n") 0x11 "u16" (chars "xs")); [apply ord_more; [member|constructor]|constructor|member|member]|].
      eapply items_more; [apply (item_rest [] [] [] [] 0x12 "u32" (chars "rest")); [constructor|constructor|member]|]. apply items_none.
    + vm_compute. reflexivity.
  - vm_compute. repeat constructor; cbn; intuition discriminate.
Qed.
Definition data74 : list datum := [Value 2; Value 9; Values [0x102; 0x304]; Values [7]].
Definition msg74 : list N := [2; 9] ++ [1; 2; 3; 4] ++ [7; 0; 0; 0].
Example C74_wire_nonvacuous :
  Forall2 (fun i d => item_ok (i_what i) d) (ls_items lists74) data74 /\ skips_well (ls_names lists74) data74 /\ lists_bytes lists74 data74 = msg74 /\
  (exists t, gives_items (index_of (ls_names lists74)) 0 (repeat 0 10) (ls_items lists74) data74 t /\
     plays actor [say 2; say 9; say 2; nod; say 0x102; say 0x304; nod; say 7; nod] t []) /\
  (exists t, told_items (index_of (ls_names lists74)) 0 (ls_items lists74) data74 t /\
     plays actor [nod; nod; say 2; nod; nod; nod; nod; nod; nod] t []).
Proof.
  split; [repeat constructor; vm_compute; easy|]. split; [intros I; vm_compute; discriminate|]. split; [vm_compute; reflexivity|split].
  - eexists. split.
    + eapply gi_more; [apply give_plain; eapply give_one with (r := say 2); reflexivity|]. eapply gi_more; [apply give_plain; eapply give_one with (r := say 9); reflexivity|].
      eapply gi_more.
      { eapply give_listed with (r1 := say 2) (r2 := nod); [reflexivity..|]. eapply all_singly with (r := nod); [discriminate|unfold byte_type; Lia.lia| |reflexivity].
        eapply each_more with (r := say 0x102); [reflexivity|reflexivity|]. eapply each_more with (r := say 0x304); [reflexivity|reflexivity|]. apply each_none. }
      eapply gi_more; [eapply give_rest with (r := nod); [discriminate| |reflexivity]; eapply each_more with (r := say 7); [reflexivity|reflexivity|]; apply each_none|]. apply gi_none.
    + cbn [app]. repeat (eapply plays_more; [reflexivity|]). apply plays_none.
  - eexists. split.
    + eapply ti_more; [apply tell_plain; eapply tell_one with (r := nod); reflexivity|]. eapply ti_more; [apply tell_plain; eapply tell_one with (r := nod); reflexivity|].
      eapply ti_more.
      { eapply tell_listed with (r1 := say 2) (r2 := nod); [reflexivity..|]. eapply tall_singly with (r := nod); [discriminate|unfold byte_type; Lia.lia| |reflexivity].
        eapply told_more with (r := nod); [reflexivity|]. eapply told_more with (r := nod); [reflexivity|]. apply told_none. }
      eapply ti_more; [eapply tell_rest with (r := nod); [discriminate| |reflexivity]; eapply told_more with (r := nod); [reflexivity|]; apply told_none|]. apply ti_none.
    + cbn [app]. repeat (eapply plays_more; [reflexivity|]). apply plays_none.
Qed.

(** Encoding an array to the end into a longer buffer fills the buffer: the host's two values are followed by two it is asked for
    beyond them, and the message has the length of the buffer. *)
Theorem C74_refuted_longer_buffer :
  encoded (chars "packet P { @eof u8 xs[]; }") [7; 8] 2 = Some ([7; 8], 16, 3) /\
  encoded (chars "packet P { @eof u8 xs[]; }") [7; 8; 0; 0] 4 = Some ([7; 8; 0; 0], 32, 5).
Proof. split; vm_compute; reflexivity. Qed.
Print Assumptions C74_refuted_longer_buffer.
(** A schema whose array is counted by a field that does not exist, or that comes after it, is accepted. *)
Theorem C74_refuted_counting_field :
  (exists im, compile_file (file "packet P { @count(none) u8 xs[]; }") 300 [] = CImage im) /\
  (exists im, compile_file (file "packet P { @count(n) u8 xs[]; u8 n; }") 300 [] = CImage im).
Proof. split; eexists; vm_compute; reflexivity. Qed.
Print Assumptions C74_refuted_counting_field.
