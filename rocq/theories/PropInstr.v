(** C14, C24, C25, C26, C29: strings, arrays and expressions. *)
From Verif Require Import Base SpecBytes LemBase ModelWord ModelFloat ModelTrans ModelVM SpecVM Samples LemSafe LemStr LemExpr LemArr.

(** Every state of a run is [sane] (used as a hypothesis below) *)
Theorem every_state_is_sane :
  forall (H : Type) (host : H -> request -> H * reply) lm bc, wf_bytes bc -> lenN bc < 2 ^ 62 ->
  forall m data h s h1, wf_bytes data -> reaches host lm bc (init m data) h s h1 -> sane s.
Proof.
  intros H host lm bc WB BL m data h s h1 WD R.
  eapply reaches_sane; [exact WB|exact BL| |exact R]. split; [exact WD|]. split; [reflexivity|]. split; discriminate.
Qed.
Print Assumptions every_state_is_sane.

(** ** C14 Strings *)

(** A NUL-terminated string: the encoder stores the string, cut to the limit, and a NUL; any packet
    with these bytes at this place decodes to a report of exactly the stored string. *)
Theorem C14_null_terminated :
  forall (H : Type) (host : H -> request -> H * reply) lm bc s h h' r l,
  wf_bytes bc -> opcode_at bc s = 0x30 -> boff s < 8 -> md s = Enc -> ip s + 5 <= lenN bc ->
  let max := operand_at bc s 3 2 in let c := cut max l in
  let rq := ask (key_at bc s) 0x30 PStr (HString 0x30 max) in
  host h rq = (h', r) -> r_ok r = true -> r_str r = Some l -> text l ->
  byte_pos s + lenN c + 1 <= lenN (buf s) ->
  exists s', interp host (step lm bc s) h = (SCont s', h', [(rq, r)]) /\
    lenN (buf s') = lenN (buf s) /\ position s' = 8 * (byte_pos s + lenN c + 1) /\ ip s' = ip s + 5 /\
    sub (buf s') (byte_pos s) (lenN c + 1) = c ++ [0] /\
    (forall i, i < byte_pos s \/ byte_pos s + lenN c + 1 <= i -> nthN (buf s') i = nthN (buf s) i) /\
  forall (H2 : Type) (host2 : H2 -> request -> H2 * reply) d g g' r2,
    md d = Dec -> boff d < 8 -> ip d = ip s -> byte_pos d = byte_pos s -> byte_pos s + lenN c + 1 <= lenN (buf d) ->
    sub (buf d) (byte_pos s) (lenN c + 1) = sub (buf s') (byte_pos s) (lenN c + 1) ->
    let rq2 := ask (key_at bc s) 0x30 (PBuf (byte_pos s) c) (HString 0x30 max) in
    host2 g rq2 = (g', r2) -> r_ok r2 = true -> r_bytes r2 = [] ->
    exists d', interp host2 (step lm bc d) g = (SCont d', g', [(rq2, r2)]) /\ buf d' = buf d /\
      position d' = position s' /\ ip d' = ip s'.
Proof. intros H. exact str_null_round_trip. Qed.
Print Assumptions C14_null_terminated.

(** A length-prefixed string: prefix of 1, 2 or 4 bytes in the byte order in force, then the string
    cut to what the prefix can count. *)
Theorem C14_length_prefixed :
  forall (H : Type) (host : H -> request -> H * reply) lm bc s h h' r l n,
  wf_bytes bc -> prefix_bytes (opcode_at bc s) = Some n -> boff s < 8 -> md s = Enc -> ip s + 3 <= lenN bc ->
  let max := 2 ^ (8 * n) - 1 in let c := cut max l in
  let rq := ask (key_at bc s) (opcode_at bc s) PStr (HString (opcode_at bc s) max) in
  host h rq = (h', r) -> r_ok r = true -> r_str r = Some l -> text l ->
  byte_pos s + n + lenN c <= lenN (buf s) ->
  exists s', interp host (step lm bc s) h = (SCont s', h', [(rq, r)]) /\
    lenN (buf s') = lenN (buf s) /\ position s' = 8 * (byte_pos s + n + lenN c) /\ ip s' = ip s + 3 /\
    sub (buf s') (byte_pos s) (n + lenN c) = bytes_of (en s) (N.to_nat n) (lenN c) ++ c /\
    (forall i, i < byte_pos s \/ byte_pos s + n + lenN c <= i -> nthN (buf s') i = nthN (buf s) i) /\
  forall (H2 : Type) (host2 : H2 -> request -> H2 * reply) d g g' r2, wf_bytes (buf d) ->
    md d = Dec -> boff d < 8 -> ip d = ip s -> en d = en s -> byte_pos d = byte_pos s -> byte_pos s + n + lenN c <= lenN (buf d) ->
    sub (buf d) (byte_pos s) (n + lenN c) = sub (buf s') (byte_pos s) (n + lenN c) ->
    let rq2 := ask (key_at bc s) (opcode_at bc s) (PBuf (byte_pos s + n) c) (HString (opcode_at bc s) max) in
    host2 g rq2 = (g', r2) -> r_ok r2 = true -> r_bytes r2 = [] ->
    exists d', interp host2 (step lm bc d) g = (SCont d', g', [(rq2, r2)]) /\ buf d' = buf d /\
      position d' = position s' /\ ip d' = ip s'.
Proof. intros H. exact str_pre_round_trip. Qed.
Print Assumptions C14_length_prefixed.
(** "Hello" cut to 3, and "Hi" with a big-endian 16-bit length, after one byte *)
Definition strings : list N := [0x02; 0x10; 0; 0; 0x30; 1; 0; 3; 0; 0x32; 2; 0].
Example C14_nonvacuous :
  exists s', fst (fst (run script lm0 strings 9 (init Enc (repeat 0 9)) [say 9; say_str [72; 101; 108; 108; 111]; say_str [72; 105]])) = Done EOk s' /\
    buf s' = [9; 72; 101; 108; 0; 0; 2; 72; 105] /\ text [72; 101; 108; 108; 111] /\
    map (fun e => rq_pl (fst e)) (snd (run quiet lm0 strings 9 (init Dec (buf s')) tt)) =
      [PInt W1 9; PBuf 1 [72; 101; 108]; PBuf 7 [72; 105]].
Proof.
  eexists. split; [vm_compute; reflexivity|]. split; [vm_compute; reflexivity|]. split.
  - repeat constructor; reflexivity || discriminate.
  - vm_compute. reflexivity.
Qed.

(** ** C24 Counted arrays *)

(** Once the host has agreed to [c] elements, [c] executions of the element code and nothing else happen
    before the loop ends, and the loop stack is then as it was before the array.
    ([laps .. m c x1 .. s' ..]: from [x1], [m] executions of the code from the header's end up to ARR_END at
    [e], one after the other, lead to [s'].)
    Missing from the full statement: [c] = 2^32-1, which the interpreter treats as "to the end of the packet",
    see C24_refuted_largest_count; byte elements sent in bulk are C25. *)
Theorem C24_body_runs_count_times_partial :
  forall (H : Type) (host : H -> request -> H * reply) lm bc, wf_bytes bc -> lenN bc < 2 ^ 62 ->
  forall s h c x h1 t e s' h',
  array_starts host bc s h c x h1 t -> sane s -> lenN (loops s) < 8 ->
  0 < c < 2 ^ 32 - 1 -> ~ byte_elements bc x \/ lenN (buf x) < cur x + c ->
  nthN bc e = 0x38 -> e < lenN bc ->
  let x1 := set_loops x ((ip x, c) :: loops s) in
  laps host lm bc (ip x) e (loops s) (N.to_nat c) c x1 h1 s' h' ->
  let rq := ask 0 0x38 PNone HNote in forall h2 r, host h' rq = (h2, r) -> r_ok r = true ->
  let z := set_loops (aligned s' 1) (loops s) in
  reaches host lm bc s h x1 h1 /\ interp host (step lm bc s') h' = (SCont z, h2, [(rq, r)]) /\
  reaches host lm bc s h z h2 /\ ip z = e + 1.
Proof. intros H. exact counted_array. Qed.
Print Assumptions C24_body_runs_count_times_partial.
(** After fewer than [c] executions the code is executed once more, without asking the host *)
Theorem C24_not_fewer_partial :
  forall (H : Type) (host : H -> request -> H * reply) lm bc, wf_bytes bc -> lenN bc < 2 ^ 62 ->
  forall s h c x h1 t e m s' h',
  array_starts host bc s h c x h1 t -> sane s -> lenN (loops s) < 8 ->
  c < 2 ^ 32 - 1 -> ~ byte_elements bc x \/ lenN (buf x) < cur x + c ->
  nthN bc e = 0x38 -> e < lenN bc -> N.of_nat m < c ->
  let x1 := set_loops x ((ip x, c) :: loops s) in
  laps host lm bc (ip x) e (loops s) m c x1 h1 s' h' ->
  reaches host lm bc s h s' h' /\
  interp host (step lm bc s') h' = (SCont (back (ip x) (c - N.of_nat m) (loops s) s'), h', []).
Proof. intros H. exact counted_prefix. Qed.
Print Assumptions C24_not_fewer_partial.
(** Count 0: execution continues right after the array's ARR_END, nothing else changed.
    Missing: element code [l] whose operand bytes look like loop instructions, see below. *)
Theorem C24_zero_skips_body_partial :
  forall (H : Type) (host : H -> request -> H * reply) lm bc, wf_bytes bc ->
  forall s h x h1 t l,
  array_starts host bc s h 0 x h1 t -> sane s ->
  balanced l -> sub bc (ip x) (lenN l) = l -> nthN bc (ip x + lenN l) = 0x38 -> ip x + lenN l < lenN bc ->
  interp host (step lm bc s) h = (SCont (set_ip x (ip x + lenN l + 1)), h1, t).
Proof. intros H. exact zero_array. Qed.
Print Assumptions C24_zero_skips_body_partial.
(** u16 arrays of 3 and 0 elements, the second one counted by a prefix byte, then a u8 *)
Definition arrays : list N :=
  [0x34; 0; 0; 3; 0; 0; 0; 0x11; 1; 0; 0x38; 0x35; 2; 0; 0x11; 3; 0; 0x38; 0x10; 4; 0].
Example C24_nonvacuous :
  array_starts quiet arrays (init Dec [1; 0; 2; 0; 3; 0; 0; 9]) tt 3 (aligned (init Dec [1; 0; 2; 0; 3; 0; 0; 9]) 7) tt
    [(ask 0 0x34 (cvar 4 3) HCount, nod)] /\
  (exists s' h', laps quiet lm0 arrays 7 10 [] 3 3 (set_loops (aligned (init Dec [1; 0; 2; 0; 3; 0; 0; 9]) 7) [(7, 3)]) tt s' h') /\
  ~ byte_elements arrays (aligned (init Dec [1; 0; 2; 0; 3; 0; 0; 9]) 7) /\
  balanced [0x11; 3; 0] /\
  map (fun e => (rq_key (fst e), rq_pl (fst e))) (snd (run quiet lm0 arrays 20 (init Dec [1; 0; 2; 0; 3; 0; 0; 9]) tt)) =
    [(0, PInt W4 3); (1, PInt W2 1); (1, PInt W2 2); (1, PInt W2 3); (0, PNone); (2, PInt W1 0); (4, PInt W1 9)].
Proof.
  split; [|split; [|split; [|split]]].
  - apply (starts_fixed quiet arrays (init Dec [1; 0; 2; 0; 3; 0; 0; 9]) tt tt nod); vm_compute; easy.
  - eexists. exists tt.
    eapply lap_more; [split; [reflexivity|split; [eapply reach_step; [apply reach_refl|reflexivity|vm_compute; reflexivity]|split; reflexivity]]|].
    eapply lap_more; [split; [reflexivity|split; [eapply reach_step; [apply reach_refl|reflexivity|vm_compute; reflexivity]|split; reflexivity]]|].
    eapply lap_one. split; [reflexivity|split; [eapply reach_step; [apply reach_refl|reflexivity|vm_compute; reflexivity]|split; reflexivity]].
  - intros [[E|E] _]; discriminate E.
  - repeat (apply bal_byte; [cbn; intuition discriminate|discriminate|]). constructor.
  - vm_compute. reflexivity.
Qed.
(** An empty array of u16 with field key 56: the low key byte looks like ARR_END, so execution continues
    inside the element code and the run fails. *)
Theorem C24_refuted_key_byte : exists bc s' t,
  wf_bytes bc /\ nthN bc 6 = 0x38 /\
  run quiet lm0 bc 20 (init Dec [0]) tt = (Done EInvalidOp s', tt, t) /\
  bc = [0x35; 0; 0; 0x11; 0x38; 0; 0x38].
Proof.
  exists [0x35; 0; 0; 0x11; 0x38; 0; 0x38]. do 2 eexists. split; [repeat constructor|]. split; [reflexivity|]. split; [vm_compute; reflexivity|reflexivity].
Qed.
Print Assumptions C24_refuted_key_byte.
(** With count 2^32-1 the element code runs twice on a packet of two u16, and the run succeeds; with 2^32-2 it fails. *)
Theorem C24_refuted_largest_count :
  let arr n := [0x34; 0; 0] ++ bytes_of LE 4 n ++ [0x11; 1; 0; 0x38] in
  exists s1 t1 s2 t2,
  run quiet lm0 (arr (2 ^ 32 - 1)) 20 (init Dec [1; 0; 2; 0]) tt = (Done EOk s1, tt, t1) /\
  run quiet lm0 (arr (2 ^ 32 - 2)) 20 (init Dec [1; 0; 2; 0]) tt = (Done EOob s2, tt, t2) /\
  map (fun e => rq_pl (fst e)) t1 = [PInt W4 (2 ^ 32 - 1); PInt W2 1; PInt W2 2; PNone].
Proof. do 4 eexists. split; [vm_compute; reflexivity|]. split; [vm_compute; reflexivity|]. vm_compute. reflexivity. Qed.
Print Assumptions C24_refuted_largest_count.

(** ** C25 Bulk byte arrays *)

(** Encoding: one host hands over the bytes [d] in the bulk exchange, another declines and gives them one
    by one (host states [k 0], [k 1], ...).  Both runs reach the same state, except that the flag "next field is
    optional", if it was set before the array, is cleared in the second. *)
Theorem C25_encode :
  forall (H1 H2 : Type) (host1 : H1 -> request -> H1 * reply) (host2 : H2 -> request -> H2 * reply) lm bc,
  wf_bytes bc -> forall s h g c x h1 g1 t1 t2 d,
  array_starts host1 bc s h c x h1 t1 -> array_starts host2 bc s g c x g1 t2 ->
  sane s -> lenN (loops s) < 8 -> md x = Enc -> tr x = TNone ->
  0 < c < 2 ^ 32 - 1 -> byte_elements bc x -> cur x + c <= lenN (buf x) -> lenN d = c -> wf_bytes d ->
  let rq := ask (key_at bc x) 0x39 (PBuf (cur x) (sub (buf x) (cur x) c)) (HRaw c) in
  forall h2 r, host1 h1 rq = (h2, r) -> r_ok r = true -> r_bytes r = d ->
  forall (k : nat -> H2) q, host2 g1 rq = (k O, q) -> r_ok q = false -> r_bytes q = [] ->
  (forall i, (i < N.to_nat c)%nat -> exists r,
      host2 (k i) (ask (key_at bc x) (opcode_at bc x) (cvar 1 0) (HField (opcode_at bc x) TNone)) = (k (S i), r) /\
      r_ok r = true /\ answer 1 0 r = nthN d (N.of_nat i)) ->
  forall g2 r2, host2 (k (N.to_nat c)) (ask 0 0x38 PNone HNote) = (g2, r2) -> r_ok r2 = true ->
  exists s1 s2, reaches host1 lm bc s h s1 h2 /\ reaches host2 lm bc s g s2 g2 /\
    buf s1 = put (buf x) (cur x) d /\ cur s1 = cur x + c /\ boff s1 = 0 /\ ip s1 = ip x + 4 /\ loops s1 = loops s /\
    s2 = set_opt s1 false.
Proof. intros H1 H2. exact bulk_encode. Qed.
Print Assumptions C25_encode.
(** Decoding: one host is lent the bytes in bulk, another declines and is given them one by one. *)
Theorem C25_decode :
  forall (H1 H2 : Type) (host1 : H1 -> request -> H1 * reply) (host2 : H2 -> request -> H2 * reply) lm bc,
  wf_bytes bc -> forall s h g c x h1 g1 t1 t2,
  array_starts host1 bc s h c x h1 t1 -> array_starts host2 bc s g c x g1 t2 ->
  sane s -> lenN (loops s) < 8 -> md x = Dec -> tr x = TNone ->
  0 < c < 2 ^ 32 - 1 -> byte_elements bc x -> cur x + c <= lenN (buf x) ->
  let d := sub (buf x) (cur x) c in let rq := ask (key_at bc x) 0x39 (PBuf (cur x) d) (HRaw c) in
  forall h2 r, host1 h1 rq = (h2, r) -> r_ok r = true -> r_bytes r = [] ->
  forall (k : nat -> H2) q, host2 g1 rq = (k O, q) -> r_ok q = false -> r_bytes q = [] ->
  (forall i, (i < N.to_nat c)%nat -> exists r,
      host2 (k i) (ask (key_at bc x) (opcode_at bc x) (cvar 1 (nthN d (N.of_nat i))) (HField (opcode_at bc x) TNone)) = (k (S i), r) /\
      r_ok r = true) ->
  forall g2 r2, host2 (k (N.to_nat c)) (ask 0 0x38 PNone HNote) = (g2, r2) -> r_ok r2 = true ->
  exists s1 s2, reaches host1 lm bc s h s1 h2 /\ reaches host2 lm bc s g s2 g2 /\
    buf s1 = buf x /\ cur s1 = cur x + c /\ boff s1 = 0 /\ ip s1 = ip x + 4 /\ loops s1 = loops s /\
    s2 = set_opt s1 false.
Proof. intros H1 H2. exact bulk_decode. Qed.
Print Assumptions C25_decode.
(** Three bytes in bulk, and one by one *)
Definition bytes_prog : list N := [0x35; 0; 0; 0x10; 1; 0; 0x38; 0x10; 2; 0].
Definition bulk_host : list N -> request -> list N * reply := fun l rq =>
  match rq_how rq with
  | HRaw _ => ([], {| r_ok := true; r_val := None; r_str := None; r_bytes := l |})
  | HCount => (l, say (lenN l))
  | _ => (l, say 77)
  end.
Definition single_host : list N -> request -> list N * reply := fun l rq =>
  match rq_how rq, l with
  | HRaw _, _ => (l, refuse)
  | HCount, _ => (l, say (lenN l))
  | HField _ _, v :: l' => (l', say v)
  | HField _ _, [] => ([], say 77)
  | _, _ => (l, nod)
  end.
Example C25_nonvacuous : exists s1 s2,
  fst (fst (run bulk_host lm0 bytes_prog 20 (init Enc (repeat 0 5)) [10; 20; 30])) = Done EOk s1 /\
  fst (fst (run single_host lm0 bytes_prog 20 (init Enc (repeat 0 5)) [10; 20; 30])) = Done EOk s2 /\
  s1 = s2 /\ buf s1 = [3; 10; 20; 30; 77] /\
  lenN (snd (run bulk_host lm0 bytes_prog 20 (init Enc (repeat 0 5)) [10; 20; 30])) = 3 /\
  lenN (snd (run single_host lm0 bytes_prog 20 (init Enc (repeat 0 5)) [10; 20; 30])) = 7 /\
  byte_elements bytes_prog (aligned (init Enc (repeat 0 5)) 3).
Proof.
  do 2 eexists. split; [vm_compute; reflexivity|]. split; [vm_compute; reflexivity|].
  repeat (split; [vm_compute; reflexivity|]). split; [left; reflexivity|]. split; reflexivity.
Qed.

(** ** C26 Read-to-end arrays *)

(** If each execution of the element code takes [k] > 0 bytes and [m] > 0 elements of [k] bytes are left, the
    code is executed exactly [m] times, the array ends at the end of the packet, and the loop stack is as before. *)
Theorem C26_reads_to_end :
  forall (H : Type) (host : H -> request -> H * reply) lm bc, wf_bytes bc -> lenN bc < 2 ^ 62 ->
  forall s h e k m s' h',
  opcode_at bc s = 0x3A -> ip s + 3 <= lenN bc -> sane s -> lenN (loops s) < 8 ->
  nthN bc e = 0x38 -> e < lenN bc -> 0 < k -> (0 < m)%nat -> byte_pos s + N.of_nat m * k = lenN (buf s) ->
  let x1 := set_loops (aligned s 3) ((ip s + 3, 2 ^ 32 - 1) :: loops s) in
  eof_laps host lm bc (ip s + 3) e k m x1 h s' h' ->
  let rq := ask 0 0x38 PNone HNote in forall h2 r, host h' rq = (h2, r) -> r_ok r = true ->
  let z := set_loops (aligned s' 1) (loops s) in
  interp host (step lm bc s) h = (SCont x1, h, []) /\
  interp host (step lm bc s') h' = (SCont z, h2, [(rq, r)]) /\
  reaches host lm bc s h z h2 /\ position z = 8 * lenN (buf z) /\ ip z = e + 1.
Proof. intros H. exact eof_array. Qed.
Print Assumptions C26_reads_to_end.
(** With bytes left after an element the element code is executed again *)
Theorem C26_not_fewer :
  forall (H : Type) (host : H -> request -> H * reply) lm bc, wf_bytes bc -> lenN bc < 2 ^ 62 ->
  forall b e k m s h s' h' rest,
  eof_laps host lm bc b e k m s h s' h' ->
  sane s -> loops s = (b, 2 ^ 32 - 1) :: rest -> byte_pos s + N.of_nat m * k < lenN (buf s) -> 0 < k ->
  nthN bc e = 0x38 -> e < lenN bc ->
  reaches host lm bc s h s' h' /\
  interp host (step lm bc s') h' = (SCont (set_ip (aligned s' 1) b), h', []).
Proof. intros H. exact eof_more. Qed.
Print Assumptions C26_not_fewer.
(** With no bytes left no element is reported and execution continues after the array (element code as in C24).
    Missing: "leaves the loop stack as it was" is false, the frame stays on the stack. *)
Theorem C26_empty_partial :
  forall (H : Type) (host : H -> request -> H * reply) lm bc, wf_bytes bc ->
  forall s h l, opcode_at bc s = 0x3A -> boff s < 8 -> lenN (loops s) < 8 ->
  lenN (buf s) <= byte_pos s -> balanced l -> sub bc (ip s + 3) (lenN l) = l -> nthN bc (ip s + 3 + lenN l) = 0x38 ->
  ip s + 3 + lenN l < lenN bc ->
  interp host (step lm bc s) h = (SCont (set_loops (aligned s (3 + lenN l + 1)) ((ip s + 3, 2 ^ 32 - 1) :: loops s)), h, []).
Proof. intros H. exact eof_header_empty. Qed.
Print Assumptions C26_empty_partial.
Definition to_end : list N := [0x10; 0; 0; 0x3A; 1; 0; 0x11; 2; 0; 0x38].
Example C26_nonvacuous :
  (exists s' h', eof_laps quiet lm0 to_end 6 9 2 2
     (set_loops (aligned (mkst Dec [9; 1; 0; 2; 0] 3 1 0 LE TNone false [] []) 3) [(6, 2 ^ 32 - 1)]) tt s' h') /\
  (exists s' t, run quiet lm0 to_end 20 (init Dec [9; 1; 0; 2; 0]) tt = (Done EOk s', tt, t) /\
     map (fun e => rq_pl (fst e)) t = [PInt W1 9; PInt W2 1; PInt W2 2; PNone] /\ cur s' = 5 /\ loops s' = []).
Proof.
  split.
  - eexists. exists tt.
    eapply SpecVM.eof_more; [split; [reflexivity|split; [eapply reach_step; [apply reach_refl|reflexivity|vm_compute; reflexivity]|split; reflexivity]]|reflexivity|].
    eapply SpecVM.eof_one; [split; [reflexivity|split; [eapply reach_step; [apply reach_refl|reflexivity|vm_compute; reflexivity]|split; reflexivity]]|reflexivity].
  - do 2 eexists. split; [vm_compute; reflexivity|]. split; [vm_compute; reflexivity|]. split; reflexivity.
Qed.
(** The frame left behind: after a packet of one byte the loop stack holds one frame. *)
Theorem C26_refuted_frame_left : exists s' t,
  run quiet lm0 to_end 20 (init Dec [9]) tt = (Done EOk s', tt, t) /\ loops s' = [(6, 2 ^ 32 - 1)].
Proof. do 2 eexists. split; [vm_compute; reflexivity|]. reflexivity. Qed.
Print Assumptions C26_refuted_frame_left.

(** ** C29 Expressions *)

(** [val k] is what the host answers when asked for the value of field [k].  Running the postfix code of
    [e] leaves every part of the state alone except that its value is pushed; a zero divisor ends the run with
    CND_ERR_ARITHMETIC; for a shift by 64 or more, or the negation of -2^63, C defines no result. *)
Theorem C29_expressions :
  forall (H : Type) (host : H -> request -> H * reply) lm bc, wf_bytes bc -> forall val,
  (forall k, val k < 2 ^ 64) ->
  (forall h k, k < 2 ^ 16 -> let r := snd (host h (ask k 0x60 (cvar 8 0) HQuery)) in
     r_ok r = true /\ answer 8 0 r = val k) ->
  forall e s h, sub bc (ip s) (lenN (postfix e)) = postfix e -> ip s + lenN (postfix e) <= lenN bc ->
  keys_fit e -> lenN (stk s) + slots e <= 8 ->
  match ieval val e with
  | EVal v => exists h', reaches host lm bc s h (set_ip (set_stk s (v :: stk s)) (ip s + lenN (postfix e))) h'
  | EZeroDiv => exists s1 h1 s2, reaches host lm bc s h s1 h1 /\ ip s1 < lenN bc /\
      interp host (step lm bc s1) h1 = (SHalt EArith s2, h1, [])
  | EUndefined => exists s1 h1 u, reaches host lm bc s h s1 h1 /\ ip s1 < lenN bc /\
      interp host (step lm bc s1) h1 = (SUndef u, h1, [])
  end.
Proof. intros H. exact postfix_spec. Qed.
Print Assumptions C29_expressions.
(** (f5 - 7) * 3 == ~(1 << 4), and 1 / (f5 - f5) *)
Definition expr1 : iexpr :=
  EBin IEq (EBin IMul (EBin ISub (EField 5) (ELit 7)) (ELit 3)) (EUn INot (EBin IShl (ELit 1) (ELit 4))).
Definition expr2 : iexpr := EBin IDiv (ELit 1) (EBin ISub (EField 5) (EField 5)).
Example C29_nonvacuous :
  ieval (fun _ => 4) (EBin IMul (EBin ISub (EField 5) (ELit 7)) (ELit 3)) = EVal (2 ^ 64 - 9) /\
  ieval (fun _ => 4) expr1 = EVal 0 /\ ieval (fun _ => 4) expr2 = EZeroDiv /\ slots expr1 = 3 /\
  (exists s, fst (fst (run (always 4) lm0 (postfix expr1) 20 (init Enc []) tt)) = Done EOk s /\ stk s = [0]) /\
  (exists s, fst (fst (run (always 4) lm0 (postfix expr2) 20 (init Enc []) tt)) = Done EArith s).
Proof.
  split; [vm_compute; reflexivity|]. split; [vm_compute; reflexivity|]. split; [vm_compute; reflexivity|]. split; [reflexivity|].
  split; eexists; [split; [vm_compute; reflexivity|reflexivity]|vm_compute; reflexivity].
Qed.
