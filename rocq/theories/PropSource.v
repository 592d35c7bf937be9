(** C52, C53, C54, C55: packets of decorated and computed fields, enumerations, conditionals and switches, from the source to the
    wire and back. *)
From Coq Require Import Strings.String.
From Verif Require Import Base SpecBytes ModelWord ModelFloat ModelTrans ModelVM SpecVM ModelText SpecText ModelParse ModelSchema
  ModelImage SpecImage LemImage SpecParse LemParse SpecNames SpecPacket SpecMessage SpecSource LemSource LemCompile LemMeaning LemRound Samples PropPacket.

(** ** C52 Compiled programs do what the source says *)

(** A file with enumerations and a packet of fields of scalar and enumeration types, with byte orders, constants and ranges, nested in
    conditionals, is compiled, without an error, to an image that loads, under the names of the source.  Running it, to encode or
    to decode, does what the source means: for every host, buffer and state of the host. *)
Theorem C52_compiled_meaning_partial : forall E path k toks,
  holds_source E path k toks -> tame (s_body k) -> lenN (source_names k) <= 65535 -> 16 + table_bytes (source_names k) < 2 ^ 32 ->
  exists im pr id, (exists n, forall fuel, (n <= fuel)%nat -> compile_file E fuel path = CImage im) /\
    load_il im = Ok (Loaded pr) /\
    (forall n, In n (source_names k) -> exists p, get_key_name im pr (id n) = Ok (Some p) /\ string_at im p n) /\
    (forall n n', In n (source_names k) -> In n' (source_names k) -> id n = id n' -> n = n') /\
    let bc := sub im (pr_bytecode pr) (pr_bytecode_len pr) in
    (lenN bc < 2 ^ 31 -> forall H (host : H -> request -> H * reply) lm m data h, wf_bytes data ->
      ends_as host lm bc m data h (meaning host id m (s_body k) (start k data) h)).
Proof.
  intros E path k toks HS TM LN TB. destruct (source_wire E path k toks HS TM LN TB) as (im & pr & id & C & L & NM & IB & IJ & BC).
  exists im, pr, id. split; [exact C|]. split; [exact L|]. split; [exact NM|]. split; [exact IJ|]. cbv zeta. rewrite BC. intros LB H host lm m data h WD.
  destruct HS as (src & ws & _ & _ & _ & R & _). eapply source_meaning; eauto.
  apply Forall_forall. intros n I. specialize (IB n I). change (2 ^ 16) with 65536. Lia.lia.
Qed.
Print Assumptions C52_compiled_meaning_partial.

Definition src52 : string :=
  "enum Kind : uint8 { Ping, Data = 7, }
   @big_endian packet Msg {
     @const(0xC0DE) uint16 magic;
     Kind kind;
     @range(-5, 5) int8 d;
     if (kind == 7) { @le u32 body; } else { bool last; }
     @big_endian u16 sum;
   }".
Definition kind52 : enum := {| m_name := chars "Kind"; m_type := 0x10; m_members := [(chars "Ping", 0%Z); (chars "Data", 7%Z)] |}.
Definition item52 (ds : list dec) (ty : N) (s : string) : leaf := Plain {| i_decs := ds; i_type := ty; i_members := None; i_name := chars s |}.
Definition source52 : source := {| s_enums := [kind52]; s_orders := [true]; s_name := chars "Msg"; s_body :=
  Field (item52 [Const 0xC0DE] 0x11 "magic")
  (Field (Plain {| i_decs := []; i_type := 0x10; i_members := Some [0; 7]%Z; i_name := chars "kind" |})
  (Field (item52 [Range (-5) 5] 0x14 "d")
  (If (XBin IEq (XField (chars "kind")) (XInt 7)) (Field (item52 [Order false] 0x12 "body") End) (Field (item52 [] 0x1A "last") End)
  (Field (item52 [Order true] 0x11 "sum") End)))) |}.
Ltac fixes := split; [reflexivity|vm_compute; reflexivity].
Example C52_nonvacuous : holds_source (file src52) [] source52 (toks_of src52) /\ tame (s_body source52) /\ lenN (source_names source52) <= 65535 /\
  16 + table_bytes (source_names source52) < 2 ^ 32.
Proof.
  split; [|split; [vm_compute; intuition (try discriminate; auto)|split; vm_compute; [discriminate|reflexivity]]].
  assert (L7 : literal (chars "7") 7) by (apply (lit_dec _ [7]); repeat constructor).
  assert (L5 : literal (chars "5") 5) by (apply (lit_dec _ [5]); repeat constructor).
  assert (LC : literal (chars "0xC0DE") 0xC0DE) by (apply (lit_hex 120 (chars "C0DE") [12; 0; 13; 14]); [discriminate|auto|repeat (apply Forall2_cons; [vm_compute; intuition congruence|]); apply Forall2_nil]).
  assert (W7 : writes 0x10 (chars "7") 7) by (apply (writes_plus 0x10 _ 7 L7); vm_compute; split; congruence).
  assert (W5 : writes 0x14 (chars "5") 5) by (apply (writes_plus 0x14 _ 5 L5); vm_compute; split; congruence).
  assert (WM : writes 0x14 (chars "-5") (-5)) by (apply (writes_minus 0x14 _ 5); [reflexivity|exact L5|vm_compute; split; congruence|reflexivity]).
  assert (WC : writes 0x11 (chars "0xC0DE") 0xC0DE) by (apply (writes_plus 0x11 _ _ LC); vm_compute; split; congruence).
  assert (N : forall es ds ty s dw w, decs_read ty ds dw -> type_read es ty None w ->
    leaf_read es (item52 ds ty s) (dw ++ [w; (TIdentifier, chars s); sign TSemicolon ";"])).
  { intros es ds ty s dw w D T. exists dw, w. split; [exact D|]. split; [exact T|]. split; [cbn [i_members]; congruence|reflexivity]. }
  exists (chars src52), (removelast (map word_of (toks_of src52))). split; [reflexivity|]. split; [vm_compute; reflexivity|].
  split; [vm_compute; reflexivity|]. split; [|split; [|split]].
  - eexists _, [sign TAt "@"; ident "big_endian"], _. split; [|split; [|split]].
    + apply enums_more; [|apply enums_none]. eexists [sign TColon ":"; ident "uint8"], _. split; [right; exists "uint8"%string; split; [member|reflexivity]|].
      split.
      { apply (mem_auto _ 0 (chars "Ping") [sign TComma ","]); [vm_compute; split; congruence|reflexivity|now left|].
        apply (mem_given _ 1 (chars "Data") (chars "7") 7 [sign TComma ","]); [exact W7|reflexivity|now left|]. apply mem_none. }
      split; [vm_compute; repeat constructor; cbn; intuition discriminate|]. split; [vm_compute; repeat constructor; cbn; intuition discriminate|]. split; [reflexivity|reflexivity].
    + apply ord_more; [member|constructor].
    + eapply read_field; [eapply N; [eapply decs_more; [apply (read_const _ "const" _ _ ltac:(member) WC)|constructor]|apply (read_scalar _ 0x11 "uint16"); member]|].
      eapply read_field.
      { exists [], (TIdentifier, chars "Kind"). split; [constructor|]. split; [exact (read_enum [kind52] kind52 (or_introl eq_refl))|]. split; [reflexivity|reflexivity]. }
      eapply read_field; [eapply N; [eapply decs_more; [apply (read_range _ _ _ _ _ WM W5); discriminate|constructor]|apply (read_scalar _ 0x14 "int8"); member]|].
      eapply read_else.
      * split; [|split; [vm_compute; tauto|vm_compute; discriminate]].
        apply (rd_bin false 1 IEq (sign TEqEq "==") [(TIdentifier, chars "kind")] [(TNumber, chars "7")]); [reflexivity|vm_compute; congruence| |].
        -- apply rd_field; [apply dt_name; vm_compute; repeat constructor|intros [X|(f & X)]; [discriminate X|destruct f; discriminate X]].
        -- apply rd_int; [exact (it_plus _ 7 L7)|vm_compute; intuition discriminate].
      * eapply read_field; [eapply N; [eapply decs_more; [apply (read_order _ false "le"); member|constructor]|apply (read_scalar _ 0x12 "u32"); member]|apply read_end].
      * eapply read_field; [eapply N; [constructor|apply (read_scalar _ 0x1A "bool"); member]|apply read_end].
      * eapply read_field; [eapply N; [eapply decs_more; [apply (read_order _ true "big_endian"); member|constructor]|apply (read_scalar _ 0x11 "u16"); member]|apply read_end].
    + vm_compute. reflexivity.
  - vm_compute. repeat constructor; cbn; intuition discriminate.
  - vm_compute. repeat constructor; cbn; intuition discriminate.
  - repeat constructor. vm_compute. intuition discriminate.
Qed.

(** The result of a run, and the number of calls to the host *)
Definition result_of (m : mode) (s : string) (vs : list N) (data : list N) : option (err * list N * N) :=
  match compile_file (file s) 300 [] with
  | CImage im => match load_il im with
    | Ok (Loaded pr) => match run script lm0 (sub im (pr_bytecode pr) (pr_bytecode_len pr)) 300 (init m data) (map say vs) with
      | (Done e s, _, t) => Some (e, buf s, lenN t)
      | _ => None
      end
    | _ => None
    end
  | _ => None
  end.
Example C52_example :
  result_of Enc src52 [7; 0xFE; 7; 0x01020304; 0xABCD] (repeat 0 12) = Some (EOk, [0xC0; 0xDE; 7; 0xFE; 1; 2; 3; 4; 0xAB; 0xCD; 0; 0], 5) /\
  result_of Enc src52 [0; 5; 0; 1; 0xABCD] (repeat 0 12) = Some (EOk, [0xC0; 0xDE; 0; 5; 1; 0xAB; 0xCD; 0; 0; 0; 0; 0], 5) /\
  result_of Enc src52 [3] (repeat 0 4) = Some (EValidation, [0xC0; 0xDE; 3; 0], 1) /\
  result_of Enc src52 [7; 6] (repeat 0 4) = Some (EValidation, [0xC0; 0xDE; 7; 6], 2) /\
  result_of Dec src52 [] [0xC0; 0xDF] = Some (EValidation, [0xC0; 0xDF], 0).
Proof. repeat split; vm_compute; reflexivity. Qed.

(** The restriction to values of the field's type is needed: the compiler accepts others, and takes the remainder.  100, in the range
    of 0 to 300, is refused, because 300 has become 44. *)
Theorem C52_refuted_range :
  result_of Enc "packet P { @range(0, 300) uint8 a; }" [100] [0] = Some (EValidation, [100], 1) /\
  result_of Enc "packet P { @range(0, 300) uint8 a; }" [44] [0] = Some (EOk, [44], 1).
Proof. split; vm_compute; reflexivity. Qed.
Print Assumptions C52_refuted_range.
(** 44, which is no member, is accepted, because 300 has become 44. *)
Theorem C52_refuted_enum : result_of Enc "enum E : uint8 { A = 300 } packet P { E a; }" [44] [0] = Some (EOk, [44], 1).
Proof. vm_compute. reflexivity. Qed.
Print Assumptions C52_refuted_enum.
(** A range on a bool is accepted by the compiler, and makes every run fail. *)
Theorem C52_refuted_bool : result_of Enc "packet P { @range(0, 1) bool a; }" [1] [0] = Some (EInvalidOp, [1], 1).
Proof. vm_compute. reflexivity. Qed.
Print Assumptions C52_refuted_bool.

(** ** C53 What one end sends, the other end receives *)

(** For such a file whose conditions are about fields in front of them: when the sender, whose values are proper, has encoded a
    message, then decoding it, followed by anything, gives the receiver the values of all fields of the message, and no others,
    and ends at the end of the message. *)
Theorem C53_sent_received : forall E path k toks,
  holds_source E path k toks -> tame (s_body k) -> lenN (source_names k) <= 65535 -> 16 + table_bytes (source_names k) < 2 ^ 32 ->
  backward [] (s_body k) ->
  exists im pr id, (exists n, forall fuel, (n <= fuel)%nat -> compile_file E fuel path = CImage im) /\
    load_il im = Ok (Loaded pr) /\
    (forall n, In n (source_names k) -> exists p, get_key_name im pr (id n) = Ok (Some p) /\ string_at im p n) /\
    (forall n n', In n (source_names k) -> In n' (source_names k) -> id n = id n' -> n = n') /\
    let bc := sub im (pr_bytecode pr) (pr_bytecode_len pr) in
    (lenN bc < 2 ^ 31 -> forall lm values data fuel e values' t,
      wf_bytes data -> Forall (proper id values) (chosen id values (s_body k)) ->
      run sender lm bc fuel (init Enc data) values = (Done EOk e, values', t) ->
      let msg := firstn (N.to_nat (position e / 8)) (buf e) in
      forall before rest, wf_bytes rest -> exists d t' n,
        (forall fuel, (n <= fuel)%nat ->
          run receiver lm bc fuel (init Dec (msg ++ rest)) before = (Done EOk d, received id values (chosen id values (s_body k)) before, t')) /\
        buf d = msg ++ rest /\ position d = position e).
Proof.
  intros E path k toks HS TM LN TB BW. destruct (source_wire E path k toks HS TM LN TB) as (im & pr & id & C & L & NM & IB & IJ & BC).
  exists im, pr, id. split; [exact C|]. split; [exact L|]. split; [exact NM|]. split; [exact IJ|]. cbv zeta. rewrite BC. intros LB lm values data fuel e values' t WD PR RUN before rest WR.
  destruct HS as (src & ws & _ & _ & _ & R & _). apply (source_round lm id k ws values before data rest fuel e values' t); auto.
  apply Forall_forall. intros n I. specialize (IB n I). change (2 ^ 16) with 65536. Lia.lia.
Qed.
Print Assumptions C53_sent_received.

Definition id53 : list N -> N := index_of [chars "magic"; chars "kind"; chars "d"; chars "body"; chars "last"; chars "sum"; chars "Msg"].
Definition values53 : store := fun k => nth (N.to_nat k) [0xC0DE; 7; 0xFE; 0x01020304; 0; 0xABCD] 0.
Example C53_nonvacuous : backward [] (s_body source52) /\ Forall (proper id53 values53) (chosen id53 values53 (s_body source52)) /\
  map leaf_name (chosen id53 values53 (s_body source52)) = map chars ["magic"; "kind"; "d"; "body"; "sum"]%string /\
  exists e t, run sender lm0 (syms_code id53 (source_sym source52)) 100 (init Enc (repeat 0 12)) values53 = (Done EOk e, values53, t) /\
    firstn (N.to_nat (position e / 8)) (buf e) = [0xC0; 0xDE; 7; 0xFE; 1; 2; 3; 4; 0xAB; 0xCD].
Proof.
  split; [|split; [|split]].
  - cbn [backward s_body source52]. do 3 (split; [exact I|]). split; [|repeat split]. intros n [<-|[]]. cbn. auto.
  - repeat (apply Forall_cons; [split; [vm_compute; reflexivity|cbn; intros c X; inversion X; reflexivity]|]). apply Forall_nil.
  - vm_compute. reflexivity.
  - eexists _, _. split; vm_compute; reflexivity.
Qed.

(** ** C54 Computed fields and switches *)

(** The whole language of SpecSource: also computed fields, switches and any integer in a condition.  Such a file is compiled,
    without an error, to an image that loads.  If the loaded program has all names of the source, then running it does what the source
    means.  The condition on the names is needed: see the refutations. *)
Theorem C54_computed_and_switches_partial : forall E path k toks,
  holds_source E path k toks -> lenN (source_names k) <= 65535 -> 16 + table_bytes (source_names k) < 2 ^ 32 ->
  exists im pr, (exists n, forall fuel, (n <= fuel)%nat -> compile_file E fuel path = CImage im) /\
    load_il im = Ok (Loaded pr) /\
    forall id, (forall n, In n (source_names k) -> get_key_id im pr n = Ok (id n) /\ id n <> 0xFFFF) ->
    (forall n n', In n (source_names k) -> In n' (source_names k) -> id n = id n' -> n = n') /\
    let bc := sub im (pr_bytecode pr) (pr_bytecode_len pr) in
    (lenN bc < 2 ^ 31 -> forall H (host : H -> request -> H * reply) lm m data h, wf_bytes data ->
      ends_as host lm bc m data h (meaning host id m (s_body k) (start k data) h)).
Proof.
  intros E path k toks HS LN TB. destruct (whole_wire E path k toks HS LN TB) as (im & pr & C & L & W).
  exists im, pr. split; [exact C|]. split; [exact L|]. intros id KN. destruct (W id KN) as (IB & IJ & BC). split; [exact IJ|]. cbv zeta. rewrite BC. intros LB H host lm m data h WD.
  destruct HS as (src & ws & _ & _ & _ & R & _). eapply source_meaning; eauto.
  apply Forall_forall. intros n I. specialize (IB n I). change (2 ^ 16) with 65536. Lia.lia.
Qed.
Print Assumptions C54_computed_and_switches_partial.

Definition src54 : string :=
  "enum Kind : uint8 { Ping, Data = 7, }
   packet Msg {
     Kind kind;
     u8 a;
     switch (kind) {
       case Kind.Ping: u16 seq;
       case 7: { u8 n; if (n > 300) { u8 more; } }
       default: u8 other;
     }
     @be @expr(a * 19 + 1) u16 sum;
   }".
Definition source54 : source := {| s_enums := [kind52]; s_orders := []; s_name := chars "Msg"; s_body :=
  Field (Plain {| i_decs := []; i_type := 0x10; i_members := Some [0; 7]%Z; i_name := chars "kind" |})
  (Field (item52 [] 0x10 "a")
  (Switch (chars "kind")
    (Case (Some 0%Z) (Field (item52 [] 0x11 "seq") End)
    (Case (Some 7%Z) (Field (item52 [] 0x10 "n") (If (XBin IGt (XField (chars "n")) (XInt 300)) (Field (item52 [] 0x10 "more") End) End End))
    (Case None (Field (item52 [] 0x10 "other") End) Stop)))
  (Field (Computed {| c_orders := [true]; c_expr := XBin IAdd (XBin IMul (XField (chars "a")) (XInt 19)) (XInt 1); c_later := []; c_type := 0x11; c_name := chars "sum" |}) End))) |}.
Definition names54 := ["kind"; "a"; "seq"; "n"; "more"; "other"; "sum"; "Msg"]%string.
Definition id54 : list N -> N := index_of (map chars names54).
Example C54_nonvacuous : holds_source (file src54) [] source54 (toks_of src54) /\ lenN (source_names source54) <= 65535 /\
  16 + table_bytes (source_names source54) < 2 ^ 32 /\
  exists im pr, compile_file (file src54) 300 [] = CImage im /\ load_il im = Ok (Loaded pr) /\
    forall n, In n (source_names source54) -> get_key_id im pr n = Ok (id54 n) /\ id54 n <> 0xFFFF.
Proof.
  split; [|split; [|split]]; [|vm_compute; discriminate|vm_compute; reflexivity|].
  2: { eexists _, _. split; [vm_compute; reflexivity|]. split; [vm_compute; reflexivity|].
    intros n I. cbn [source_names source54 s_body s_name prog_names case_names leaf_names names c_expr c_name i_name item52 app] in I.
    repeat (destruct I as [<-|I]; [split; vm_compute; [reflexivity|discriminate]|]). destruct I. }
  assert (L7 : literal (chars "7") 7) by (apply (lit_dec _ [7]); repeat constructor).
  assert (L1 : literal (chars "1") 1) by (apply (lit_dec _ [1]); repeat constructor).
  assert (L19 : literal (chars "19") 19) by (apply (lit_dec _ [1; 9]); repeat constructor).
  assert (L300 : literal (chars "300") 300) by (apply (lit_dec _ [3; 0; 0]); repeat constructor).
  assert (W7 : writes 0x10 (chars "7") 7) by (apply (writes_plus 0x10 _ 7 L7); vm_compute; split; congruence).
  assert (V7 : writes 0x13 (chars "7") 7) by (apply (writes_plus 0x13 _ 7 L7); vm_compute; split; congruence).
  assert (N : forall es ds ty s dw w, decs_read ty ds dw -> type_read es ty None w ->
    leaf_read es (item52 ds ty s) (dw ++ [w; (TIdentifier, chars s); sign TSemicolon ";"])).
  { intros es ds ty s dw w D T. exists dw, w. split; [exact D|]. split; [exact T|]. split; [cbn [i_members]; congruence|reflexivity]. }
  exists (chars src54), (removelast (map word_of (toks_of src54))). split; [reflexivity|]. split; [vm_compute; reflexivity|].
  split; [vm_compute; reflexivity|]. split; [|split; [|split]].
  - eexists _, [], _. split; [|split; [|split]].
    + apply enums_more; [|apply enums_none]. eexists [sign TColon ":"; ident "uint8"], _. split; [right; exists "uint8"%string; split; [member|reflexivity]|].
      split.
      { apply (mem_auto _ 0 (chars "Ping") [sign TComma ","]); [vm_compute; split; congruence|reflexivity|now left|].
        apply (mem_given _ 1 (chars "Data") (chars "7") 7 [sign TComma ","]); [exact W7|reflexivity|now left|]. apply mem_none. }
      split; [vm_compute; repeat constructor; cbn; intuition discriminate|]. split; [vm_compute; repeat constructor; cbn; intuition discriminate|]. split; [reflexivity|reflexivity].
    + constructor.
    + eapply read_field.
      { exists [], (TIdentifier, chars "Kind"). split; [constructor|]. split; [exact (read_enum [kind52] kind52 (or_introl eq_refl))|]. split; [reflexivity|reflexivity]. }
      eapply read_field; [eapply N; [constructor|apply (read_scalar _ 0x10 "u8"); member]|].
      eapply read_switch; [|vm_compute; repeat constructor; cbn; intuition discriminate|vm_compute; reflexivity|].
      * eapply cases_single; [apply (label_member _ kind52 (chars "Ping") 0); vm_compute; auto| |exact I|].
        { eapply read_field; [eapply N; [constructor|apply (read_scalar _ 0x11 "u16"); member]|apply read_end]. }
        eapply cases_block; [apply (label_number _ 0x13 _ _ (or_introl eq_refl) V7)| |].
        { eapply read_field; [eapply N; [constructor|apply (read_scalar _ 0x10 "u8"); member]|].
          eapply read_if; [|eapply read_field; [eapply N; [constructor|apply (read_scalar _ 0x10 "u8"); member]|apply read_end]|apply read_end].
          split; [|split; [vm_compute; tauto|vm_compute; discriminate]].
          apply (rd_bin false 1 IGt (sign TGt ">") [(TIdentifier, chars "n")] [(TNumber, chars "300")]); [reflexivity|vm_compute; congruence| |].
          - apply rd_field; [apply dt_name; vm_compute; repeat constructor|intros [X|(f & X)]; [discriminate X|destruct f; discriminate X]].
          - apply rd_int; [exact (it_plus _ 300 L300)|vm_compute; intuition discriminate]. }
        eapply cases_single; [apply label_default| |exact I|apply cases_stop].
        eapply read_field; [eapply N; [constructor|apply (read_scalar _ 0x10 "u8"); member]|apply read_end].
      * eapply read_field; [|apply read_end]. eexists [sign TAt "@"; ident "be"], _, [], "u16"%string. split; [apply ord_more; [member|constructor]|].
        split; [|split; [constructor|split; [member|split; [vm_compute; discriminate|reflexivity]]]].
        split; [|split; [vm_compute; tauto|vm_compute; discriminate]].
        eapply (rd_bin false 1 IAdd (sign TPlus "+") _ [(TNumber, chars "1")]); [reflexivity|vm_compute; congruence| |apply rd_int; [exact (it_plus _ 1 L1)|vm_compute; intuition discriminate]].
        apply (rd_bin false _ IMul (sign TStar "*") [(TIdentifier, chars "a")] [(TNumber, chars "19")]); [reflexivity|vm_compute; congruence| |].
        -- apply rd_field; [apply dt_name; vm_compute; repeat constructor|intros [X|(f & X)]; [discriminate X|destruct f; discriminate X]].
        -- apply rd_int; [exact (it_plus _ 19 L19)|vm_compute; intuition discriminate].
    + vm_compute. reflexivity.
  - vm_compute. repeat constructor; cbn; intuition discriminate.
  - vm_compute. repeat constructor; cbn; intuition discriminate.
  - repeat constructor. vm_compute. intuition discriminate.
Qed.
Example C54_example :
  result_of Enc src54 [0; 10; 0; 0x1234; 10; 0] (repeat 0 7) = Some (EOk, [0; 10; 0x34; 0x12; 0; 191; 0], 6) /\
  result_of Enc src54 [7; 10; 7; 5; 5; 10; 0] (repeat 0 7) = Some (EOk, [7; 10; 5; 0; 191; 0; 0], 7) /\
  result_of Dec src54 [0; 0; 7; 0; 5; 10; 0] [7; 10; 5; 0; 191] = Some (EOk, [7; 10; 5; 0; 191], 7) /\
  result_of Dec src54 [0; 0; 7; 0; 5; 10; 0] [7; 10; 5; 0; 190] = Some (EValidation, [7; 10; 5; 0; 190], 7).
Proof. repeat split; vm_compute; reflexivity. Qed.

(** The code and the numbers of names of a compiled file *)
Definition compiled (s : string) (names : list string) : option (list N * list (result N)) :=
  match compile_file (file s) 300 [] with
  | CImage im => match load_il im with
    | Ok (Loaded pr) => Some (sub im (pr_bytecode pr) (pr_bytecode_len pr), map (fun n => get_key_id im pr (chars n)) names)
    | _ => None
    end
  | _ => None
  end.
(** The compiler's last pass (C42) spoils programs with computed fields.  The field behind a computed field loses its name, and
    shares its number with the next field: the host is asked for d when c is sent, and told c's value as d's. *)
Theorem C54_refuted_collision :
  compiled "packet P { u8 a; @expr(a + 1) u8 b; u8 c; u8 d; }" ["a"; "b"; "c"; "d"]%string = Some
    ([7; 3; 0] ++ [0x10; 0; 0] ++ [0x60; 0; 0] ++ [0x61; 1; 0; 0; 0; 0; 0; 0; 0] ++ [0x72] ++ [0x64] ++ [0x78; 1; 0] ++ [0x65; 0x10]
      ++ [0x10; 2; 0] ++ [0x10; 2; 0], [Ok 0; Ok 1; Ok 0xFFFF; Ok 2]).
Proof. vm_compute. reflexivity. Qed.
Print Assumptions C54_refuted_collision.
(** The same source, with a switch: "case 1040" has become 784, and the message for 1040 lacks the field e. *)
Theorem C54_refuted_case :
  let src := "packet P { u8 a; @expr(a + 1) u8 b; u8 c; u16 d; switch (d) { case 1040: u8 e; } }"%string in
  result_of Enc src [1; 1; 0; 3; 1040; 1040; 9] (repeat 0 6) = Some (EOk, [1; 2; 3; 0x10; 4; 0], 6) /\
  result_of Enc src [1; 1; 0; 3; 784; 784; 9] (repeat 0 6) = Some (EOk, [1; 2; 3; 0x10; 3; 9], 7).
Proof. split; vm_compute; reflexivity. Qed.
Print Assumptions C54_refuted_case.

(** With fractions (1.5 is 0x3FF8000000000000): a field is compared as if its bits were those of a fraction, so that no byte is greater than
    1.5.  The field b is never there, whatever a is; with [a > 1] it is. *)
Definition with_fraction (s : string) : env :=
  {| e_strtod := fun t => if list_eq_dec N.eq_dec t (chars "1.5") then 0x3FF8000000000000 else 0; e_read := fun _ => Some (chars s); e_canon := fun x => x |}.
Definition sent_with (s : string) (vs : list N) (data : list N) : option (list N * N) :=
  match compile_file (with_fraction s) 300 [] with
  | CImage im => match load_il im with
    | Ok (Loaded pr) => match run script lm0 (sub im (pr_bytecode pr) (pr_bytecode_len pr)) 300 (init Enc data) (map say vs) with
      | (Done EOk s, _, _) => Some (buf s, cur s)
      | _ => None
      end
    | _ => None
    end
  | _ => None
  end.
Theorem C54_refuted_fraction :
  (forall a, a < 256 -> sent_with "packet P { u8 a; if (a > 1.5) { u8 b; } }" [a; a; 9] [0; 0] = Some ([a; 0], 1)) /\
  sent_with "packet P { u8 a; if (a > 1) { u8 b; } }" [200; 200; 9] [0; 0] = Some ([200; 9], 2).
Proof.
  split; [|vm_compute; reflexivity].
  assert (A : forallb (fun a => match sent_with "packet P { u8 a; if (a > 1.5) { u8 b; } }" [a; a; 9] [0; 0] with Some ([x; 0], 1) => x =? a | _ => false end)
    (map N.of_nat (seq 0 256)) = true) by (vm_compute; reflexivity).
  intros a L. rewrite forallb_forall in A. specialize (A a). assert (I : In a (map N.of_nat (seq 0 256))).
  { apply in_map_iff. exists (N.to_nat a). split; [apply N2Nat.id|]. apply in_seq. Lia.lia. }
  specialize (A I). destruct (sent_with _ _ _) as [[[|x [|[|] [|]]] [|[]]]|]; try discriminate. apply N.eqb_eq in A. now subst.
Qed.
Print Assumptions C54_refuted_fraction.

(** ** C55 The same for computed fields and switches: what one end sends, the other end receives *)
Theorem C55_sent_received : forall E path k toks,
  holds_source E path k toks -> lenN (source_names k) <= 65535 -> 16 + table_bytes (source_names k) < 2 ^ 32 -> backward [] (s_body k) ->
  exists im pr, (exists n, forall fuel, (n <= fuel)%nat -> compile_file E fuel path = CImage im) /\
    load_il im = Ok (Loaded pr) /\
    forall id, (forall n, In n (source_names k) -> get_key_id im pr n = Ok (id n) /\ id n <> 0xFFFF) ->
    (forall n n', In n (source_names k) -> In n' (source_names k) -> id n = id n' -> n = n') /\
    let bc := sub im (pr_bytecode pr) (pr_bytecode_len pr) in
    (lenN bc < 2 ^ 31 -> forall lm values data fuel e values' t,
      wf_bytes data -> Forall (proper id values) (chosen id values (s_body k)) ->
      run sender lm bc fuel (init Enc data) values = (Done EOk e, values', t) ->
      let msg := firstn (N.to_nat (position e / 8)) (buf e) in
      forall before rest, wf_bytes rest -> exists d t' n,
        (forall fuel, (n <= fuel)%nat ->
          run receiver lm bc fuel (init Dec (msg ++ rest)) before = (Done EOk d, received id values (chosen id values (s_body k)) before, t')) /\
        buf d = msg ++ rest /\ position d = position e).
Proof.
  intros E path k toks HS LN TB BW. destruct (whole_wire E path k toks HS LN TB) as (im & pr & C & L & W).
  exists im, pr. split; [exact C|]. split; [exact L|]. intros id KN. destruct (W id KN) as (IB & IJ & BC). split; [exact IJ|]. cbv zeta. rewrite BC. intros LB lm values data fuel e values' t WD PR RUN before rest WR.
  destruct HS as (src & ws & _ & _ & _ & R & _). apply (source_round lm id k ws values before data rest fuel e values' t); auto.
  apply Forall_forall. intros n I. specialize (IB n I). change (2 ^ 16) with 65536. Lia.lia.
Qed.
Print Assumptions C55_sent_received.

Definition values55 : store := fun k => nth (N.to_nat k) [7; 10; 0; 5; 0; 0; 191] 0.
Example C55_nonvacuous : backward [] (s_body source54) /\ Forall (proper id54 values55) (chosen id54 values55 (s_body source54)) /\
  map leaf_name (chosen id54 values55 (s_body source54)) = map chars ["kind"; "a"; "n"; "sum"]%string /\
  exists e t, run sender lm0 (syms_code id54 (source_sym source54)) 100 (init Enc (repeat 0 12)) values55 = (Done EOk e, values55, t) /\
    firstn (N.to_nat (position e / 8)) (buf e) = [7; 10; 5; 0; 191].
Proof.
  split; [|split; [|split]].
  - cbn. intuition. all: intros x [<-|[]]; cbn; auto.
  - do 3 (apply Forall_cons; [split; [vm_compute; reflexivity|cbn; intros c X; inversion X; reflexivity]|]). apply Forall_cons; [split; vm_compute; reflexivity|apply Forall_nil].
  - vm_compute. reflexivity.
  - eexists _, _. split; vm_compute; reflexivity.
Qed.
