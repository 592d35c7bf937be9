(** C68, C69: fields added to a packet, and converted numbers. *)
From Coq Require Import Strings.String.
From Verif Require Import Base SpecBytes ModelWord ModelFloat ModelTrans ModelVM SpecVM ModelText SpecText ModelParse ModelSchema
  ModelImage SpecImage LemImage SpecParse SpecNames SpecPacket LemPacket SpecMessage LemMessage SpecNest LemNest LemNestFile LemNestRun
  SpecParts LemPartsWire LemPartsRun SpecEvolve LemEvolve Samples PropPacket PropNest PropParts.

(** ** C68 Optional fields let a packet grow *)

(** Two schemas: the second has further numbers at the end, marked optional. Each compiled by itself, a message of the first is read
    under the second: the same values are reported, then of each number added that it is missing. A message of the second is the
    message of the first with more bytes behind it, and is read under the first. *)
Theorem C68_evolution_partial : forall E path old toks E' path' new toks' fs, holds_frame E path old toks -> holds_frame E' path' new toks' -> extends old new fs ->
  Forall (fun n => lenN n <= 255) (frame_all old) -> lenN (frame_all old) <= 65535 -> 16 + table_bytes (frame_names old) < 2 ^ 32 ->
  Forall (fun n => lenN n <= 255) (frame_all new) -> lenN (frame_all new) <= 65535 -> 16 + table_bytes (frame_names new) < 2 ^ 32 ->
  Forall (fun p => part_depth p <= 8) (fr_parts old) ->
  exists im pr id im' pr' id',
    (forall fuel, (length toks < fuel)%nat -> compile_file E fuel path = CImage im) /\ load_il im = Ok (Loaded pr) /\
    (forall n, In n (frame_names old) -> exists p, get_key_name im pr (id n) = Ok (Some p) /\ string_at im p n) /\
    (forall fuel, (length toks' < fuel)%nat -> compile_file E' fuel path' = CImage im') /\ load_il im' = Ok (Loaded pr') /\
    (forall n, In n (frame_names new) -> exists p, get_key_name im' pr' (id' n) = Ok (Some p) /\ string_at im' p n) /\
    let bc := sub im (pr_bytecode pr) (pr_bytecode_len pr) in
    let bc' := sub im' (pr_bytecode pr') (pr_bytecode_len pr') in
    forall gs, Forall2 part_ok (fr_parts old) gs -> Forall2 (part_skips (lenN (frame_names old))) (fr_parts old) gs ->
      Forall2 (part_skips (lenN (frame_names new))) (fr_parts old) gs ->
      let msg := frame_bytes old gs in
      (forall H (host : H -> request -> H * reply) lm h t rs h', parts_said Dec id' 0 msg (fr_parts old) gs t ->
        length rs = length fs -> Forall (fun r => r_ok r = true) rs -> plays host h (t ++ told_missing id' fs rs) h' ->
        exists s' n, (forall fuel, (n <= fuel)%nat -> run host lm bc' fuel (init Dec msg) h = (Done EOk s', h', t ++ told_missing id' fs rs)) /\
          buf s' = msg /\ position s' = 8 * lenN msg) /\
      (forall hs, Forall2 part_ok (map number_part fs) hs ->
        exists more, frame_bytes new (gs ++ hs) = msg ++ more /\
        forall H (host : H -> request -> H * reply) lm h t h', parts_said Dec id 0 (msg ++ more) (fr_parts old) gs t -> plays host h t h' ->
          exists s' n, (forall fuel, (n <= fuel)%nat -> run host lm bc fuel (init Dec (msg ++ more)) h = (Done EOk s', h', t)) /\
            buf s' = msg ++ more /\ position s' = 8 * lenN msg).
Proof.
  intros E path old toks E' path' new toks' fs HO HN EX LB UL TB LB' UL' TB' DP.
  destruct (frame_wire E path old toks HO LB UL TB) as (im & pr & id & C & L & NM & IB & BC). destruct (frame_plain E path old toks id HO UL IB) as (MP & NL).
  destruct (frame_wire E' path' new toks' HN LB' UL' TB') as (im' & pr' & id' & C' & L' & NM' & IB' & BC'). destruct (frame_plain E' path' new toks' id' HN UL' IB') as (MP' & NL').
  exists im, pr, id, im', pr', id'. do 6 (split; [assumption|]). cbv zeta. rewrite BC, BC'. intros gs OK SK SK'. split.
  - intros. eapply (grown_reads_old host lm id' (lenN (frame_names new)) old new fs); eauto.
  - intros hs OK'. destruct (grown_message old new fs gs hs EX OK OK') as (more & EM & WM). exists more. split; [exact EM|].
    intros. eapply (old_reads host lm id (lenN (frame_names old)) old); eauto.
Qed.
Print Assumptions C68_evolution_partial.

Definition src68 : string := "packet P { u16 a; @be i32 b; }".
Definition src68' : string := "packet P { u16 a; @be i32 b; @optional @be u16 x; @optional bool y; }".
Definition num68 (ds : list numdec) (ty : N) (s : string) : numfield := {| nf_decs := ds; nf_type := ty; nf_name := chars s |}.
Definition old68 : list numfield := [num68 [] 0x11 "a"; num68 [NOrder true] 0x16 "b"].
Definition add68 : list numfield := [num68 [NOptional; NOrder true] 0x11 "x"; num68 [NOptional] 0x1A "y"].
Definition frame68 (fs : list numfield) : frame := {| fr_structs := []; fr_orders := []; fr_name := chars "P"; fr_parts := map number_part fs |}.
Ltac whole_file := match goal with |- holds_frame (file ?s) _ _ _ =>
  exists (chars s), (removelast (map word_of (toks_of s))); split; [reflexivity|]; split; [vm_compute; reflexivity|]; split; [vm_compute; reflexivity|];
  eexists _, [], _; split; [apply structs_none|]; split; [constructor|]; split; [|split; [|split]] end.
Ltac next_number s := eapply several_more; [eapply (read_number _ _ _ _ _ _ s); [|vm_compute; congruence|member]|].
Example C68_files_nonvacuous : holds_frame (file src68) [] (frame68 old68) (toks_of src68) /\ holds_frame (file src68') [] (frame68 (old68 ++ add68)) (toks_of src68').
Proof.
  split; whole_file.
  1,5: next_number "u16"%string; [apply several_none|]; next_number "i32"%string; [eapply several_more; [apply (read_norder _ true "be"); member|apply several_none]|].
  1: apply several_none.
  1: next_number "u16"%string; [eapply several_more; [apply read_noptional|]; eapply several_more; [apply (read_norder _ true "be"); member|apply several_none]|].
  1: next_number "bool"%string; [eapply several_more; [apply read_noptional|apply several_none]|]; apply several_none.
  all: try (vm_compute; reflexivity). all: vm_compute. all: try (repeat constructor; cbn; intuition discriminate). all: intuition discriminate.
Qed.
Definition nod68 : list reply := repeat nod 4.
Example C68_evolution_nonvacuous :
  extends (frame68 old68) (frame68 (old68 ++ add68)) add68 /\
  Forall2 part_ok (fr_parts (frame68 old68)) [Stored 0x102; Stored 0x3040506] /\
  frame_bytes (frame68 old68) [Stored 0x102; Stored 0x3040506] = [2; 1; 3; 4; 5; 6] /\
  frame_bytes (frame68 (old68 ++ add68)) ([Stored 0x102; Stored 0x3040506] ++ [Stored 0x708; Stored 1]) = [2; 1; 3; 4; 5; 6] ++ [7; 8; 1] /\
  (forall id, exists t, parts_said Dec id 0 [2; 1; 3; 4; 5; 6] (fr_parts (frame68 old68)) [Stored 0x102; Stored 0x3040506] t /\
     plays actor nod68 (t ++ told_missing id add68 [nod; nod]) []).
Proof.
  split; [split; [reflexivity|]; split; [reflexivity|]; split; [reflexivity|]; repeat constructor; cbn; auto|]. split; [repeat constructor; vm_compute; intuition discriminate|].
  split; [vm_compute; reflexivity|]. split; [vm_compute; reflexivity|]. intros id. eexists. split.
  - do 2 (eapply parts_said_number with (r := nod); [reflexivity|reflexivity|]). apply parts_said_none.
  - cbn [app told_missing add68]. repeat (eapply plays_more; [reflexivity|]). apply plays_none.
Qed.

(** *** Where it fails *)

(** Full property: the conclusion of [C68_evolution_partial] for any numbers added, so long as they are marked optional, and, for a message cut
    anywhere among the numbers added, what is left over reported of none of them. Neither is so.

    The conversion of a missing number is applied to the next one: the byte 7 is reported as 12. *)
Definition src68c : list N := chars "packet P { @optional @add(5) u16 a; @optional u8 b; }".
Theorem C68_refuted_conversion : forall lm, exists s,
  run actor lm (program_of src68c) 10 (init Dec [7]) [nod; nod] =
    (Done EOk s, [], [(ask 0 0x11 (cvar 2 0) (HMissing 0x11), nod); (ask 1 0x17 (cvar 8 12) (HField 0x10 (TAdd 5)), nod)]).
Proof. intros lm. eexists. vm_compute. reflexivity. Qed.
Print Assumptions C68_refuted_conversion.
(** The first byte of a number cut short is reported as the next number. *)
Definition src68d : list N := chars "packet P { @optional u16 a; @optional u8 b; }".
Theorem C68_refuted_cut : forall lm, exists s,
  run actor lm (program_of src68d) 10 (init Dec [7]) [nod; nod] =
    (Done EOk s, [], [(ask 0 0x11 (cvar 2 0) (HMissing 0x11), nod); (ask 1 0x10 (cvar 1 7) (HField 0x10 TNone), nod)]).
Proof. intros lm. eexists. vm_compute. reflexivity. Qed.
Print Assumptions C68_refuted_cut.

(** ** C69 Converted numbers come back *)

(** A packet of numbers, some with @add, @sub, @mul or @div: if every value, converted, is a number of its field's type, and every
    @mul divides its value, then the values given to the encoder are those that the decoder reports. *)
Theorem C69_round_trip_partial : forall E path k toks fs, holds_frame E path k toks -> fr_parts k = map number_part fs ->
  Forall (fun n => lenN n <= 255) (frame_all k) -> lenN (frame_all k) <= 65535 -> 16 + table_bytes (frame_names k) < 2 ^ 32 ->
  exists im pr id, (forall fuel, (length toks < fuel)%nat -> compile_file E fuel path = CImage im) /\
    load_il im = Ok (Loaded pr) /\
    (forall n, In n (frame_names k) -> exists p, get_key_name im pr (id n) = Ok (Some p) /\ string_at im p n) /\
    let bc := sub im (pr_bytecode pr) (pr_bytecode_len pr) in
    forall vs, Forall2 storable fs vs ->
      exists msg, lenN msg = total fs /\
      (forall H (host : H -> request -> H * reply) lm data h t h', wf_bytes data -> lenN msg <= lenN data ->
        numbers_said Enc id fs vs t -> plays host h t h' ->
        exists s' n, (forall fuel, (n <= fuel)%nat -> run host lm bc fuel (init Enc data) h = (Done EOk s', h', t)) /\
          buf s' = msg ++ skipn (N.to_nat (lenN msg)) data /\ position s' = 8 * lenN msg) /\
      (forall H (host : H -> request -> H * reply) lm rest h t h', wf_bytes rest ->
        numbers_said Dec id fs vs t -> plays host h t h' ->
        exists s' n, (forall fuel, (n <= fuel)%nat -> run host lm bc fuel (init Dec (msg ++ rest)) h = (Done EOk s', h', t)) /\
          buf s' = msg ++ rest /\ position s' = 8 * lenN msg).
Proof.
  intros E path k toks fs HS EP LB UL TB. destruct (frame_wire E path k toks HS LB UL TB) as (im & pr & id & C & L & NM & IB & BC).
  destruct (frame_plain E path k toks id HS UL IB) as (MP & NL). exists im, pr, id. do 3 (split; [assumption|]). cbv zeta. rewrite BC. intros vs ST.
  assert (T : Forall (fun f => 0x10 <= nf_type f <= 0x1A /\ (conv_of f <> CSame -> nf_type f <= 0x17)) fs).
  { rewrite EP in MP. apply Forall_forall. intros f I. destruct (proj1 (Forall_forall _ _) MP (number_part f) (in_map _ _ _ I)) as (A & B & _). auto. }
  destruct (numbers_both fs vs T ST) as (gs & OK & SK & LN & SD). rewrite <- EP in OK, SK, LN, SD. specialize (SK (lenN (frame_names k))).
  exists (frame_bytes k gs). split; [apply LN|]. split; intros.
  - eapply (numbers_run host lm id (lenN (frame_names k)) k fs); eauto. split; [assumption|discriminate].
  - destruct (numbers_run host lm id (lenN (frame_names k)) k fs gs Dec (frame_bytes k gs ++ rest) t h h') as (s' & n & R & B & P); auto.
    + apply LemBase.wf_app; [now apply parts_wf, parts_ok_all|assumption].
    + split; [rewrite LemBase.lenN_app; Lia.lia|]. intros _. unfold after. now rewrite skipn_front.
    + exists s', n. split; [exact R|]. split; [|exact P]. rewrite B. unfold after. now rewrite skipn_front.
Qed.
Print Assumptions C69_round_trip_partial.

Definition src69 : string := "packet P { @add(5) u8 a; @mul(-10) @be i16 b; @optional @div(3) i32 c; float d; @be @sub(4) u64 e; }".
Definition fs69 : list numfield :=
  [num68 [NAdd 5] 0x10 "a"; num68 [NMul (-10); NOrder true] 0x15 "b"; num68 [NOptional; NDiv 3] 0x16 "c"; num68 [] 0x18 "d"; num68 [NOrder true; NSub 4] 0x13 "e"].
Example C69_file_nonvacuous : holds_frame (file src69) [] (frame68 fs69) (toks_of src69).
Proof.
  assert (L5 : int_text (chars "5") 5) by (apply (it_plus (chars "5") 5), (lit_dec _ [5]); repeat constructor).
  assert (L10 : int_text (chars "-10") (-10)) by (apply (it_minus (chars "10") 10); [apply (lit_dec _ [1; 0]); repeat constructor|vm_compute; discriminate]).
  assert (L3 : int_text (chars "3") 3) by (apply (it_plus (chars "3") 3), (lit_dec _ [3]); repeat constructor).
  assert (L4 : int_text (chars "4") 4) by (apply (it_plus (chars "4") 4), (lit_dec _ [4]); repeat constructor).
  whole_file.
  1: next_number "u8"%string; [eapply several_more; [apply (read_nadd _ 5 (chars "5") L5)|apply several_none]|].
  1: next_number "i16"%string; [eapply several_more; [apply (read_nmul _ (-10) (chars "-10") L10)|]; eapply several_more; [apply (read_norder _ true "be"); member|apply several_none]|].
  1: next_number "i32"%string; [eapply several_more; [apply read_noptional|]; eapply several_more; [apply (read_ndiv _ 3 (chars "3") L3)|apply several_none]|].
  1: next_number "float"%string; [apply several_none|].
  1: next_number "u64"%string; [eapply several_more; [apply (read_norder _ true "be"); member|]; eapply several_more; [apply (read_nsub _ 4 (chars "4") L4)|apply several_none]|]; apply several_none.
  all: try (vm_compute; reflexivity). all: vm_compute. all: try (repeat constructor; cbn; intuition discriminate). all: intuition discriminate.
Qed.
(** 200, 1230, -7, 1.5 and 1000 *)
Definition vs69 : list N := [200; 1230; 2 ^ 64 - 7; 0x3FC00000; 1000].
Example C69_round_trip_nonvacuous :
  Forall2 storable fs69 vs69 /\ total fs69 = 19 /\
  (forall id, exists t, numbers_said Enc id fs69 vs69 t /\ plays actor (map say vs69) t []) /\
  (forall id, exists t, numbers_said Dec id fs69 vs69 t /\ plays actor (repeat nod 5) t []) /\
  (forall lm, exists s t, run actor lm (program_of (chars src69)) 30 (init Enc (repeat 0 19)) (map say vs69) = (Done EOk s, [], t) /\
     buf s = [195; 0xFF; 0x85; 0xEB; 0xFF; 0xFF; 0xFF; 0; 0; 0xC0; 0x3F; 0; 0; 0; 0; 0; 0; 0x03; 0xEC]).
Proof.
  split.
  - repeat constructor; try (vm_compute; intuition discriminate). exists (-123)%Z. reflexivity.
  - split; [reflexivity|]. split; [|split].
    + intros id. eexists. split; [unfold vs69; do 5 (match goal with |- numbers_said _ _ _ (?v :: _) _ => eapply ns_more with (r := say v); [reflexivity|reflexivity|] end); apply ns_none|]. repeat (eapply plays_more; [reflexivity|]). apply plays_none.
    + intros id. eexists. split; [repeat (eapply ns_more with (r := nod); [reflexivity|discriminate|]); apply ns_none|]. repeat (eapply plays_more; [reflexivity|]). apply plays_none.
    + intros lm. eexists _, _. vm_compute. split; reflexivity.
Qed.

(** *** Where it fails *)

(** Full property: the conclusion of [C69_round_trip_partial] for every value whose converted number is one of the field's type, and for @scale
    and @offset. A value that the factor of @mul does not divide is changed: 10 is reported as 9. *)
Definition src69m : list N := chars "packet P { @mul(3) u8 a; }".
Theorem C69_refuted_product : forall lm, exists s s',
  run actor lm (program_of src69m) 10 (init Enc [0]) [say 10] = (Done EOk s, [], [(ask 0 0x17 (cvar 8 0) (HField 0x10 (TMul 3)), say 10)]) /\ buf s = [3] /\
  run actor lm (program_of src69m) 10 (init Dec [3]) [nod] = (Done EOk s', [], [(ask 0 0x17 (cvar 8 9) (HField 0x10 (TMul 3)), nod)]).
Proof. intros lm. eexists _, _. split; [vm_compute; reflexivity|]. split; vm_compute; reflexivity. Qed.
Print Assumptions C69_refuted_product.
(** A number that does not fit the field's type is not refused: its higher bytes are lost. 300 is reported as 44. *)
Definition src69w : list N := chars "packet P { @add(0) u8 a; }".
Theorem C69_refuted_range : forall lm, exists s s',
  run actor lm (program_of src69w) 10 (init Enc [0]) [say 300] = (Done EOk s, [], [(ask 0 0x17 (cvar 8 0) (HField 0x10 (TAdd 0)), say 300)]) /\ buf s = [44] /\
  run actor lm (program_of src69w) 10 (init Dec [44]) [nod] = (Done EOk s', [], [(ask 0 0x17 (cvar 8 44) (HField 0x10 (TAdd 0)), nod)]).
Proof. intros lm. eexists _, _. split; [vm_compute; reflexivity|]. split; vm_compute; reflexivity. Qed.
Print Assumptions C69_refuted_range.

(** *** Numbers in C59 *)

(** The language of [C59_source_to_wire_partial] has numbers with any of these decorators, @scale and @offset included: 20.0 goes on the wire as 120,
    and 120 is reported as 20.0; then a number with the higher byte first. *)
Definition src59n : string := "packet T { @scale(0.5) @offset(-40) u8 temp; @optional @be u16 extra; }".
Definition half59 : N := 0x3FE0000000000000.
Definition less40 : N := 0xC044000000000000.
Definition file59n : env := {| e_strtod := fun s => if ModelParse.same_text s (chars "0.5") then half59 else less40; e_read := fun _ => Some (chars src59n); e_canon := fun x => x |}.
Definition frame59n : frame := {| fr_structs := []; fr_orders := []; fr_name := chars "T";
  fr_parts := [Numeric [NScale half59; NOffset less40] 0x10 (chars "temp"); Numeric [NOptional; NOrder true] 0x11 (chars "extra")] |}.
Example C59_numbers_nonvacuous : holds_frame file59n [] frame59n (toks_of src59n) /\
  Forall2 part_ok (fr_parts frame59n) [Stored 120; Stored 0x203] /\ frame_bytes frame59n [Stored 120; Stored 0x203] = [120; 2; 3] /\
  (forall id, exists t, parts_said Enc id 0 (repeat 0 3) (fr_parts frame59n) [Stored 120; Stored 0x203] t /\ plays actor [say 0x4034000000000000; say 0x203] t []) /\
  (forall id, exists t, parts_said Dec id 0 [120; 2; 3] (fr_parts frame59n) [Stored 120; Stored 0x203] t /\ plays actor [nod; nod] t [] /\
     map fst t = [ask (id (chars "temp")) 0x19 (cvar 8 0x4034000000000000) (HField 0x10 (TScale half59 less40)); ask (id (chars "extra")) 0x11 (cvar 2 0x203) (HField 0x11 TNone)]).
Proof.
  split; [|split; [|split; [|split]]].
  - exists (chars src59n), (removelast (map word_of (toks_of src59n))). split; [reflexivity|]. split; [vm_compute; reflexivity|]. split; [vm_compute; reflexivity|].
    eexists _, [], _. split; [apply structs_none|]. split; [constructor|]. split; [|split; [|split]].
    1: next_number "u8"%string; [eapply several_more; [apply (read_nscale (e_strtod file59n) (chars "0.5")); reflexivity|]; eapply several_more; [apply (read_noffset (e_strtod file59n) (chars "-40")); reflexivity|apply several_none]|].
    1: next_number "u16"%string; [eapply several_more; [apply read_noptional|]; eapply several_more; [apply (read_norder _ true "be"); member|apply several_none]|apply several_none].
    all: try (vm_compute; reflexivity). all: vm_compute. all: try (repeat constructor; cbn; intuition discriminate). all: intuition discriminate.
  - repeat constructor; vm_compute; intuition discriminate.
  - vm_compute. reflexivity.
  - intros id. eexists. split.
    + eapply parts_said_number with (r := say 0x4034000000000000) (v := 0x4034000000000000); [reflexivity|vm_compute; repeat split; reflexivity|].
      eapply parts_said_number with (r := say 0x203); [reflexivity|vm_compute; repeat split; reflexivity|]. apply parts_said_none.
    + repeat (eapply plays_more; [reflexivity|]). apply plays_none.
  - intros id. eexists. split; [|split].
    + eapply parts_said_number with (r := nod) (v := 0x4034000000000000); [reflexivity|vm_compute; reflexivity|].
      eapply parts_said_number with (r := nod) (v := 0x203); [reflexivity|vm_compute; reflexivity|]. apply parts_said_none.
    + repeat (eapply plays_more; [reflexivity|]). apply plays_none.
    + reflexivity.
Qed.
