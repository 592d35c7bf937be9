(** C57: structures as fields. *)
From Coq Require Import Strings.String.
From Verif Require Import Base SpecBytes ModelWord ModelFloat ModelTrans ModelVM SpecVM ModelText SpecText ModelParse ModelSchema
  ModelImage SpecImage LemImage SpecParse LemParse SpecNames SpecPacket LemPacket SpecMessage LemMessage SpecNest LemNest LemNestFile LemNestWire LemNestRun Samples PropPacket.

(** ** C57 Structures as fields *)

(** A file of structures and a packet whose fields may be of structure type, or arrays of structures, is compiled to an image whose
    names are those of the packet - with those of the members written out, "field.member" - and whose code is the packet's
    instructions, with the members' in place. *)
Theorem C57_compiles : forall E path k toks, holds_schema E path k toks ->
  Forall (fun n => lenN n <= 255) (all_names k) -> lenN (all_names k) <= 65536 ->
  exists names, NoDup names /\ (forall s, In s names <-> In s (schema_names k)) /\
    forall fuel, (length toks < fuel)%nat ->
      compile_file E fuel path = CImage (image names (code (schema_instrs (index_of names) k))).
Proof.
  intros E path k toks HS LB UL. pose proof (schema_text E path k toks HS) as TX. destruct HS as (src & ws & RD & LX & M & SR). eapply compile_schema; eauto.
Qed.
Print Assumptions C57_compiles.

(** From the source to the wire: the image loads, under the names of the packet. Encoding with it goes through the fields in order,
    announces where a structure begins and ends and how many copies there are, asks for the members' values, and writes their
    bytes one after another; decoding such a message reports them. *)
Theorem C57_source_to_wire_partial : forall E path k toks, holds_schema E path k toks ->
  Forall (fun n => lenN n <= 255) (all_names k) -> lenN (all_names k) <= 65535 -> 16 + table_bytes (schema_names k) < 2 ^ 32 ->
  fold_right N.max 0 (map depth (sc_members k)) <= 8 ->
  exists im pr id, (forall fuel, (length toks < fuel)%nat -> compile_file E fuel path = CImage im) /\
    load_il im = Ok (Loaded pr) /\
    (forall n, In n (schema_names k) -> exists p, get_key_name im pr (id n) = Ok (Some p) /\ string_at im p n) /\
    forall ts, every2 tree_ok (sc_members k) ts -> every2 (tree_skips (lenN (schema_names k))) (sc_members k) ts ->
    let bc := sub im (pr_bytecode pr) (pr_bytecode_len pr) in
    let msg := message k ts in
    (forall H (host : H -> request -> H * reply) lm data h z t h', wf_bytes data -> lenN msg <= lenN data ->
      said_members Enc id [] 0 data (sc_members k) ts z t -> plays host h t h' ->
      exists s' n, (forall fuel, (n <= fuel)%nat -> run host lm bc fuel (init Enc data) h = (Done EOk s', h', t)) /\
        buf s' = msg ++ skipn (N.to_nat (lenN msg)) data /\ position s' = 8 * lenN msg) /\
    (forall H (host : H -> request -> H * reply) lm rest h z t h', wf_bytes rest ->
      said_members Dec id [] 0 (msg ++ rest) (sc_members k) ts z t -> plays host h t h' ->
      exists s' n, (forall fuel, (n <= fuel)%nat -> run host lm bc fuel (init Dec (msg ++ rest)) h = (Done EOk s', h', t)) /\
        buf s' = msg ++ rest /\ position s' = 8 * lenN msg).
Proof.
  intros E path k toks HS LB UL TB DP. destruct (schema_wire E path k toks HS LB UL TB) as (im & pr & id & C & L & NM & IB & BC).
  exists im, pr, id. split; [exact C|]. split; [exact L|]. split; [exact NM|]. intros ts TO TS. cbv zeta. rewrite BC.
  assert (MP : every member_plain (sc_members k)) by (destruct HS as (src & ws & _ & _ & _ & SR); eapply schema_read_plain; eauto).
  assert (NL : lenN (schema_names k) <= 65536) by (unfold all_names in UL; rewrite LemBase.lenN_app in UL; Lia.lia).
  split; intros.
  - eapply (whole_run host lm id k (lenN (schema_names k))); eauto. split; [assumption|discriminate].
  - destruct (whole_run host lm id k (lenN (schema_names k)) MP IB NL DP Dec (message k ts ++ rest) ts z t h h') as (s' & n & R & B & P); auto.
    + apply LemBase.wf_app; [now apply members_ok_wf|assumption].
    + split; [rewrite LemBase.lenN_app; Lia.lia|]. intros _. unfold after. now rewrite skipn_front.
    + exists s', n. split; [exact R|]. split; [|exact P]. rewrite B. unfold after. now rewrite skipn_front.
Qed.
Print Assumptions C57_source_to_wire_partial.

Definition src57 : string :=
  "struct Point { i16 x; @be u16 y; }
   struct Path { u8 kind; Point pts[] prefix u8; };
   @big_endian packet Msg { u16 id; Path a; @le Path b[2]; Point none[] prefix u16; @be Point last; }".
Definition point57 : list member := [Flat (plain49 [] (Scalar 0x15 One) "x"); Flat (plain49 [true] (Scalar 0x11 One) "y")].
Definition path57 : list member := [Flat (plain49 [] (Scalar 0x10 One) "kind"); Nest [] (Counted 1) (chars "pts") point57].
Definition schema57 : schema := {| sc_structs := [(chars "Point", point57); (chars "Path", path57)]; sc_orders := [true]; sc_name := chars "Msg";
  sc_members := [Flat (plain49 [] (Scalar 0x11 One) "id"); Nest [] One (chars "a") path57; Nest [false] (Fixed 2) (chars "b") path57;
    Nest [] (Counted 2) (chars "none") point57; Nest [true] One (chars "last") point57] |}.
Example C57_compiles_nonvacuous : holds_schema (file src57) [] schema57 (toks_of src57).
Proof.
  assert (L2 : literal (chars "2") 2) by (apply (lit_dec _ [2]); repeat constructor).
  assert (N : forall env c s a b, content_read c a b -> member_read env (Flat (plain49 [] c s)) (a ++ [(TIdentifier, chars s)] ++ b ++ [sign TSemicolon ";"])).
  { intros. apply flat_read. exists [], a, b. split; [constructor|]. split; auto. }
  assert (M : forall env x s n b w, In (s, b) env -> extent_read x w -> member_read env (Nest [] x n b) ([] ++ [(TIdentifier, s); (TIdentifier, n)] ++ w ++ [sign TSemicolon ";"])).
  { intros. apply nest_read; auto. constructor. }
  exists (chars src57), (removelast (map word_of (toks_of src57))). split; [reflexivity|]. split; [vm_compute; reflexivity|]. split; [vm_compute; reflexivity|].
  eexists _, [sign TAt "@"; ident "big_endian"], _. split; [|split; [|split; [|split; [|split]]]].
  - eapply structs_more with (sc := []).
    + eapply members_more; [apply N; apply (read_one 0x15 "i16"); member|]. eapply members_more; [|apply members_none].
      apply flat_read. eexists [sign TAt "@"; ident "be"], _, _. split; [apply ord_more; [member|constructor]|]. split; [apply (read_one 0x11 "u16"); member|reflexivity].
    + intros [].
    + vm_compute. intuition discriminate.
    + vm_compute. repeat constructor; cbn; intuition discriminate.
    + now left.
    + eapply structs_more with (sc := [sign TSemicolon ";"]).
      * eapply members_more; [apply N; apply (read_one 0x10 "u8"); member|]. eapply members_more; [|apply members_none].
        apply (M _ _ (chars "Point")); [now left|]. apply (ext_counted 1 "u8"); member.
      * vm_compute. intuition discriminate.
      * vm_compute. intuition discriminate.
      * vm_compute. repeat constructor; cbn; intuition discriminate.
      * now right.
      * apply structs_none.
  - apply (ord_more _ true "big_endian" [] []); [member|constructor].
  - eapply members_more; [apply N; apply (read_one 0x11 "u16"); member|].
    eapply members_more; [apply (M _ _ (chars "Path")); [right; now left|constructor]|].
    eapply members_more; [eapply (nest_read _ [false] [sign TAt "@"; ident "le"] (Fixed 2)); [apply ord_more; [member|constructor]|right; left; reflexivity|apply (ext_fixed _ 2 L2); reflexivity]|].
    eapply members_more; [apply (M _ _ (chars "Point")); [now left|apply (ext_counted 2 "u16"); member]|].
    eapply members_more; [eapply (nest_read _ [true] [sign TAt "@"; ident "be"] One); [apply ord_more; [member|constructor]|left; reflexivity|constructor]|].
    apply members_none.
  - vm_compute. intuition discriminate.
  - vm_compute. repeat constructor; cbn; intuition discriminate.
  - vm_compute. reflexivity.
Qed.
Definition one (v : N) : tree := Datum (Value v).
Definition trees57 : list tree :=
  [one 0x102; Groups [[one 1; Groups [[one 0x304; one 0x506]; [one 7; one 8]]]]; Groups [[one 2; Groups []]; [one 3; Groups [[one 9; one 10]]]]; Groups []; Groups [[one 11; one 12]]].
(** The big-endian order of the file ends with the first field marked big-endian. *)
Definition msg57 : list N :=
  [1; 2] ++ [1; 2; 3; 4; 5; 6; 7; 0; 0; 8] ++ [2; 0; 3; 1; 9; 0; 0; 10] ++ [0; 0] ++ [0; 11; 0; 12].
Ltac talk :=
  lazymatch goal with
  | |- said_members _ _ _ _ _ [] [] _ _ => apply said_none
  | |- said_members _ _ _ _ _ _ _ _ _ => eapply said_more
  | |- said Enc _ _ _ _ (Flat _) (one ?v) _ _ => apply said_flat; eapply give_one with (r := say v); reflexivity
  | |- said Dec _ _ _ _ (Flat _) (one ?v) _ _ => apply said_flat; eapply tell_one with (r := nod); reflexivity
  | |- said _ _ _ _ _ _ _ _ _ => eapply said_nest
  | |- counts _ _ One _ _ => reflexivity
  | |- counts _ _ (Fixed _) _ _ => exists nod; repeat split; reflexivity
  | |- counts Enc _ _ ?c _ => let v := eval compute in c in exists (say v); repeat split; reflexivity
  | |- counts Dec _ _ _ _ => exists nod; repeat split; reflexivity
  | |- ends _ _ _ => first [reflexivity|exists nod; split; reflexivity]
  | |- said_groups _ _ _ _ _ _ _ [] _ _ => apply said_no_group
  | |- said_groups _ _ _ _ _ _ _ _ _ _ => eapply said_group with (r := nod) (r' := nod); [reflexivity| |reflexivity|]
  end.
Example C57_wire_nonvacuous :
  Forall (fun n => lenN n <= 255) (all_names schema57) /\ lenN (schema_names schema57) = 18 /\ 16 + table_bytes (schema_names schema57) < 2 ^ 32 /\
  fold_right N.max 0 (map depth (sc_members schema57)) = 2 /\ every2 tree_ok (sc_members schema57) trees57 /\ every2 (tree_skips 18) (sc_members schema57) trees57 /\
  message schema57 trees57 = msg57 /\
  (exists z t, said_members Enc (index_of (schema_names schema57)) [] 0 (repeat 0 40) (sc_members schema57) trees57 z t /\ plays actor
     [say 0x102; nod; say 1; say 2; nod; say 0x304; say 0x506; nod; nod; say 7; say 8; nod; nod; nod; nod; nod; say 2; say 0; nod; nod; say 3; say 1; nod; say 9; say 10; nod; nod; nod; nod;
      say 0; nod; say 11; say 12; nod] t []) /\
  (exists z t, said_members Dec (index_of (schema_names schema57)) [] 0 msg57 (sc_members schema57) trees57 z t /\ plays actor (repeat nod 34) t []).
Proof.
  split; [vm_compute; repeat constructor; discriminate|]. split; [vm_compute; reflexivity|]. split; [vm_compute; reflexivity|]. split; [vm_compute; reflexivity|].
  split; [vm_compute; intuition|]. split; [vm_compute; intuition discriminate|]. split; [vm_compute; reflexivity|]. split.
  - eexists _, _. split; [repeat talk|]. cbn [app]. repeat (eapply plays_more; [reflexivity|]). apply plays_none.
  - eexists _, _. split; [repeat talk|]. cbn [app]. repeat (eapply plays_more; [reflexivity|]). apply plays_none.
Qed.

(** *** Where it fails *)

(** Full property: the conclusion of [C57_source_to_wire_partial] without its limits on the length of names, the depth of arrays and the
    numbers in skipped code.  It fails without them:

    Two fields whose names differ after 255 characters: their members are given one name, and the host cannot tell them apart. *)
Definition program_of (src : list N) : list N :=
  match compile_file {| e_strtod := fun _ => 0; e_read := fun _ => Some src; e_canon := fun x => x |} 300 [] with
  | CImage im => match load_il im with Ok (Loaded pr) => sub im (pr_bytecode pr) (pr_bytecode_len pr) | _ => [] end
  | _ => []
  end.
Definition src57n : list N := chars "struct S { u8 v; } packet P { S " ++ repeat 97 255 ++ chars "x; S " ++ repeat 97 255 ++ chars "y; }".
Theorem C57_refuted_long_names : program_of src57n = code [ins 0x07 [3] [];
  ins 0x03 [0] []; ins 0x10 [1] []; ins 0x04 [] []; ins 0x03 [2] []; ins 0x10 [1] []; ins 0x04 [] []].
Proof. vm_compute. reflexivity. Qed.
Print Assumptions C57_refuted_long_names.
(** Arrays nine deep: accepted by the compiler, refused when run. Eight deep is fine. *)
Definition structs57 : string := "struct A { u8 v; } struct B { A a[1]; } struct C { B a[1]; } struct D { C a[1]; } struct E { D a[1]; } struct F { E a[1]; } struct G { F a[1]; } struct H { G a[1]; } ".
Definition ended (src : list N) : option (err * N) :=
  match run script lm0 (program_of src) 300 (init Enc (repeat 0 8)) [] with (Done e s, _, _) => Some (e, position s) | _ => None end.
Theorem C57_refuted_nine_deep :
  ended (chars structs57 ++ chars "packet P { H x[1]; }") = Some (EOk, 8) /\
  ended (chars structs57 ++ chars "struct I { H a[1]; } packet P { I x[1]; }") = Some (EOob, 0).
Proof. split; vm_compute; reflexivity. Qed.
Print Assumptions C57_refuted_nine_deep.
(** An empty array of structures that hold 52 bytes each: the 52 is taken for an instruction, and what follows the array is neither
    asked for nor written. With 51 bytes each it is. *)
Theorem C57_refuted_skipped :
  encoded (chars "struct S { uint8 a[52]; } packet P { S xs[] prefix uint8; uint8 last; }") [0; 7] 3 = Some ([0; 0; 0], 8, 1) /\
  encoded (chars "struct S { uint8 a[51]; } packet P { S xs[] prefix uint8; uint8 last; }") [0; 7] 3 = Some ([0; 7; 0], 16, 2).
Proof. split; vm_compute; reflexivity. Qed.
Print Assumptions C57_refuted_skipped.
