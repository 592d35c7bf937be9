(** Vocabulary for statements about runs of the interpreter.  Nothing here depends on how the
    instructions are implemented; only the state record, the host interface and the loop of the
    interpreter are used. *)
From Verif Require Import Base SpecBytes ModelFloat ModelVM.

(** Position in the packet, in bits *)
Definition position (s : st) : N := 8 * cur s + boff s.

(** ** States a run goes through *)
Section Reach.
  Context {H : Type} (host : H -> request -> H * reply) (lm : libm) (bc : list N).
  (** Starting in [s] with host state [h], the run is in state [s'] with host state [h'] at the
      start of some later instruction *)
  Inductive reaches : st -> H -> st -> H -> Prop :=
  | reach_refl s h : reaches s h s h
  | reach_step s h s' h' s2 h2 t : reaches s h s' h' -> ip s' < lenN bc ->
      interp host (step lm bc s') h' = (SCont s2, h2, t) -> reaches s h s2 h2.
  (** The same, also counting the state in which the run stops *)
  Definition passes (s : st) (h : H) (s2 : st) (h2 : H) : Prop :=
    reaches s h s2 h2 \/
    exists s1 h1 e t, reaches s h s1 h1 /\ ip s1 < lenN bc /\
      interp host (step lm bc s1) h1 = (SHalt e s2, h2, t).
End Reach.

(** [during host lm bc s h P]: [P] holds at the start of every instruction of the run *)
Definition during {H} (host : H -> request -> H * reply) lm bc (s : st) (h : H) (P : st -> Prop) : Prop :=
  forall s1 h1, reaches host lm bc s h s1 h1 -> ip s1 < lenN bc -> P s1.

(** ** What a host may be required to do *)

(** It never writes through a pointer into the packet. *)
Definition host_reads_only {H} (host : H -> request -> H * reply) : Prop :=
  forall h rq, r_bytes (snd (host h rq)) = [].
(** When it refuses, it has not written through the pointer. *)
Definition host_refuses_cleanly {H} (host : H -> request -> H * reply) : Prop :=
  forall h rq, r_ok (snd (host h rq)) = false -> r_bytes (snd (host h rq)) = [].

(** ** Instructions singled out by their encoding *)

(** The byte at the instruction pointer and the operand bytes after it *)
Definition opcode_at (bc : list N) (s : st) : N := nthN bc (ip s).
Definition operand_at (bc : list N) (s : st) (i n : N) : N := val_of LE (sub bc (ip s + i) n).

(** Bytes of an integer type, by type code *)
Definition type_bytes (ty : N) : option N :=
  match ty with
  | 0x10 | 0x14 => Some 1 | 0x11 | 0x15 => Some 2
  | 0x12 | 0x16 => Some 4 | 0x13 | 0x17 => Some 8
  | _ => None
  end.

(** ALIGN_PAD skipping more bits than the packet has left, while decoding *)
Definition pads_past_end (bc : list N) (s : st) : Prop :=
  opcode_at bc s = 0x23 /\ md s = Dec /\ 8 * lenN (buf s) < position s + nthN bc (ip s + 1).
(** ENUM_CHECK of a type with more bytes than there are before the position *)
Definition enum_before_start (bc : list N) (s : st) : Prop :=
  opcode_at bc s = 0x4B /\ exists n, type_bytes (nthN bc (ip s + 1)) = Some n /\ position s + 8 <= 8 * n.
(** EMIT (computed field) at a position that is not a byte boundary *)
Definition emits_mid_byte (bc : list N) (s : st) : Prop := opcode_at bc s = 0x65 /\ boff s <> 0.
(** Byte-order change at a position that is not a byte boundary *)
Definition switches_mid_byte (bc : list N) (s : st) : Prop :=
  (opcode_at bc s = 0x01 \/ opcode_at bc s = 0x02) /\ boff s <> 0.
(** SWITCH_TABLE whose table claims 2^61 entries or more *)
Definition huge_table (bc : list N) (s : st) : Prop :=
  opcode_at bc s = 0x53 /\
  let table := ip s + 7 + operand_at bc s 3 4 in
  2 ^ 61 <= val_of LE (sub bc (table + 8) 8) - val_of LE (sub bc table 8).

(** None of the three instructions that can leave the packet is about to be executed *)
Definition safe_at (bc : list N) (s : st) : Prop :=
  ~ pads_past_end bc s /\ ~ enum_before_start bc s /\ ~ emits_mid_byte bc s.

(** Values an instruction takes from the expression stack *)
Definition operands_needed (op : N) : N :=
  if ((0x69 <=? op) && (op <=? 0x70)) || ((0x72 <=? op) && (op <=? 0x76)) || ((0x80 <=? op) && (op <=? 0x83))
     || (op =? 0x89) || ((0x92 <=? op) && (op <=? 0x97)) || ((0xA0 <=? op) && (op <=? 0xA2))
     || (op =? 0xA4) || (op =? 0xA5) then 2
  else if (op =? 0x50) || (op =? 0x62) || (op =? 0x64) || (op =? 0x65) || (op =? 0x71) || (op =? 0x77) || (op =? 0x78)
     || ((0x84 <=? op) && (op <=? 0x88)) || (op =? 0x8A) || (op =? 0x8B) || (op =? 0x90) || (op =? 0x91)
     || (op =? 0xA3) then 1
  else 0.

(** ** Requests and fields *)

(** The next byte boundary, in bytes *)
Definition byte_pos (s : st) : N := (position s + 7) / 8.
(** Signed integer types *)
Definition type_signed (ty : N) : bool := (0x14 <=? ty) && (ty <=? 0x17).
(** The number an [n]-byte pattern stands for in a type *)
Definition number (n : N) (signed : bool) (v : N) : Z :=
  if signed && (2 ^ (8 * n - 1) <=? v) then (Z.of_N v - 2 ^ (8 * Z.of_N n))%Z else Z.of_N v.
(** A C variable of [n] bytes holding [v], passed by address *)
Definition cvar (n v : N) : payload :=
  PInt (match n with 1 => ModelWord.W1 | 2 => ModelWord.W2 | 4 => ModelWord.W4 | _ => ModelWord.W8 end) v.
(** The key operand of most instructions *)
Definition key_at (bc : list N) (s : st) : N := operand_at bc s 1 2.
Definition ask (key op : N) (p : payload) (how : how) : request :=
  {| rq_key := key; rq_op := op; rq_pl := p; rq_how := how |}.
(** The value an [n]-byte variable that held [v] has after the callback *)
Definition answer (n v : N) (r : reply) : N :=
  match r_val r with Some x => x mod 2 ^ (8 * n) | None => v end.

(** ** Integer transforms *)

(** [z] is a value of the [n]-byte integer type *)
Definition fits (n : N) (signed : bool) (z : Z) : Prop :=
  if signed then (- 2 ^ (8 * Z.of_N n - 1) <= z < 2 ^ (8 * Z.of_N n - 1))%Z
  else (0 <= z < 2 ^ (8 * Z.of_N n))%Z.
(** How the stored number and the engineering value are related by an integer transform *)
Definition relates (t : ModelTrans.trans) (raw eng : Z) : Prop :=
  match t with
  | ModelTrans.TAdd i => eng = (raw + i)%Z
  | ModelTrans.TSub i => eng = (raw - i)%Z
  | ModelTrans.TMul i => i <> 0%Z /\ eng = (raw * i)%Z
  | ModelTrans.TDiv i => i <> 0%Z /\ raw = (eng * i)%Z
  | _ => False
  end.
(** The number the encoder computes, in unbounded arithmetic (C division truncates) *)
Definition raw_number (t : ModelTrans.trans) (eng : Z) : Z :=
  match t with
  | ModelTrans.TAdd i => (eng - i)%Z
  | ModelTrans.TSub i => (eng + i)%Z
  | ModelTrans.TMul i => if (i =? 0)%Z then eng else Z.quot eng i
  | ModelTrans.TDiv i => (eng * i)%Z
  | _ => eng
  end.
(** The number the decoder computes *)
Definition eng_number (t : ModelTrans.trans) (raw : Z) : Z :=
  match t with
  | ModelTrans.TAdd i => (raw + i)%Z
  | ModelTrans.TSub i => (raw - i)%Z
  | ModelTrans.TMul i => (raw * i)%Z
  | ModelTrans.TDiv i => if (i =? 0)%Z then raw else Z.quot raw i
  | _ => raw
  end.
Definition int_transform (t : ModelTrans.trans) : Prop :=
  match t with
  | ModelTrans.TAdd _ | ModelTrans.TSub _ | ModelTrans.TMul _ | ModelTrans.TDiv _ => True
  | _ => False
  end.

(** ** Validation and dispatch *)

(** The [i]-th of a list of [n]-byte values stored in the bytecode from [p] on *)
Definition listed (bc : list N) (p n : N) (i : nat) : N := val_of LE (sub bc (p + N.of_nat i * n) n).
(** All [count] of them *)
Definition all_listed (bc : list N) (p n count : N) : list N :=
  map (listed bc p n) (seq 0 (N.to_nat count)).

(** First case with the value, else the default *)
Fixpoint dispatch (cases : list (N * N)) (dflt disc : N) : N :=
  match cases with
  | [] => dflt
  | (v, target) :: r => if disc =? v then target else dispatch r dflt disc
  end.
(** Case list of a switch: 12-byte entries, value then offset *)
Definition case_at (bc : list N) (p : N) (i : nat) : N * N :=
  (val_of LE (sub bc (p + N.of_nat i * 12) 8), val_of LE (sub bc (p + N.of_nat i * 12 + 8) 4)).
Definition case_list (bc : list N) (p count : N) : list (N * N) :=
  map (case_at bc p) (seq 0 (N.to_nat count)).
(** Dense table: the offset for [mn + i] is the [i]-th 4-byte entry *)
Definition dense_list (bc : list N) (p mn count : N) : list (N * N) :=
  map (fun i => (mn + N.of_nat i, val_of LE (sub bc (p + N.of_nat i * 4) 4))) (seq 0 (N.to_nat count)).

(** Where a jump by the signed 32-bit [off] from [base] goes: inside the bytecode (or to its end), or the run stops *)
Definition jumps (bc : list N) (s : st) (base off : N) : stepped :=
  let z := (Z.of_N base + number 4 true off)%Z in
  if ((0 <=? z) && (z <=? Z.of_N (lenN bc)))%Z then SCont (set_ip s (Z.to_N z)) else SHalt EOob s.

(** An integer field without transform: what the host is asked, and the value that goes through *)
Definition field_request (bc : list N) (s : st) (n : N) : request :=
  ask (key_at bc s) (opcode_at bc s)
      (cvar n (match md s with Enc => 0 | Dec => val_of (en s) (sub (buf s) (byte_pos s) n) end))
      (HField (opcode_at bc s) ModelTrans.TNone).
Definition processed (s : st) (n : N) (r : reply) : N :=
  match md s with Enc => answer n 0 r | Dec => val_of (en s) (sub (buf s) (byte_pos s) n) end.

(** Bytes of a field type that can be optional: integers, floats, boolean *)
Definition scalar_bytes (op : N) : option N :=
  match op with 0x18 => Some 4 | 0x19 => Some 8 | 0x1A => Some 1 | _ => type_bytes op end.

(** ** Strings *)

(** A C string: bytes that are not NUL *)
Definition text (l : list N) : Prop := Forall (fun b => 0 < b < 256) l.
(** At most the first [max] of them *)
Definition cut (max : N) (l : list N) : list N := firstn (N.to_nat max) l.
(** Prefix bytes of a length-prefixed string instruction *)
Definition prefix_bytes (op : N) : option N :=
  match op with 0x31 => Some 1 | 0x32 => Some 2 | 0x33 => Some 4 | _ => None end.

(** ** Arrays *)

(** [s] moved to the next byte boundary, [k] bytes of bytecode later *)
Definition aligned (s : st) (k : N) : st := set_ip (set_boff (set_cur s (byte_pos s)) 0) (ip s + k).
Definition count_bytes (op : N) : option N :=
  match op with 0x35 => Some 1 | 0x36 => Some 2 | 0x37 => Some 4 | _ => None end.

Section Arrays.
  Context {H : Type} (host : H -> request -> H * reply) (lm : libm) (bc : list N).

  (** [array_starts s h c x h1 t]: the instruction at [s] is an array header, the host agrees to [c]
      elements in the exchanges [t], and [x] is [s] with the header dealt with, at the element code *)
  Inductive array_starts (s : st) (h : H) : N -> st -> H -> list event -> Prop :=
  | starts_fixed h1 r : opcode_at bc s = 0x34 -> ip s + 7 <= lenN bc ->
      let rq := ask (key_at bc s) 0x34 (cvar 4 (operand_at bc s 3 4)) HCount in
      host h rq = (h1, r) -> r_ok r = true ->
      array_starts s h (answer 4 (operand_at bc s 3 4) r) (aligned s 7) h1 [(rq, r)]
  | starts_prefixed_enc n h1 r : count_bytes (opcode_at bc s) = Some n -> ip s + 3 <= lenN bc -> md s = Enc ->
      byte_pos s + n <= lenN (buf s) ->
      let rq := ask (key_at bc s) (opcode_at bc s) (cvar n 0) HCount in
      host h rq = (h1, r) -> r_ok r = true ->
      let c := answer n 0 r in
      array_starts s h c (set_cur (set_buf (aligned s 3) (put (buf s) (byte_pos s) (bytes_of (en s) (N.to_nat n) c)))
                                  (byte_pos s + n)) h1 [(rq, r)]
  | starts_prefixed_dec n h1 r : count_bytes (opcode_at bc s) = Some n -> ip s + 3 <= lenN bc -> md s = Dec ->
      byte_pos s + n <= lenN (buf s) ->
      let c := val_of (en s) (sub (buf s) (byte_pos s) n) in
      let rq := ask (key_at bc s) (opcode_at bc s) (cvar n c) HCount in
      host h rq = (h1, r) -> r_ok r = true ->
      array_starts s h (answer n c r) (set_cur (aligned s 3) (byte_pos s + n)) h1 [(rq, r)]
  | starts_dynamic h1 r1 h2 r2 : opcode_at bc s = 0x3B -> ip s + 5 <= lenN bc ->
      let rq1 := ask (operand_at bc s 3 2) 0x06 (cvar 8 0) HQuery in
      host h rq1 = (h1, r1) -> r_ok r1 = true ->
      let c := answer 8 0 r1 in c < 2 ^ 32 ->
      let rq2 := ask (key_at bc s) 0x3B (cvar 4 c) HCount in
      host h1 rq2 = (h2, r2) -> r_ok r2 = true ->
      array_starts s h (answer 4 c r2) (aligned s 5) h2 [(rq1, r1); (rq2, r2)].

  (** The element code at [x] is a single u8 or i8 field *)
  Definition byte_elements (x : st) : Prop :=
    (nthN bc (ip x) = 0x10 \/ nthN bc (ip x) = 0x14) /\ nthN bc (ip x + 3) = 0x38 /\ ip x + 3 < lenN bc.

  (** One execution of the code from [b] up to the ARR_END at [e], leaving the loop stack as it was *)
  Definition pass (b e : N) (s : st) (h : H) (s' : st) (h' : H) : Prop :=
    ip s = b /\ reaches host lm bc s h s' h' /\ ip s' = e /\ loops s' = loops s.
  (** The start of the next element: the same state at the next byte boundary, back at [b], with [left] elements to go *)
  Definition back (b left : N) (rest : list (N * N)) (s : st) : st := set_ip (set_loops (aligned s 1) ((b, left) :: rest)) b.
  (** [m] executions one after the other, the first with [left] elements to go *)
  Inductive laps (b e : N) (rest : list (N * N)) : nat -> N -> st -> H -> st -> H -> Prop :=
  | lap_one left s h s' h' : pass b e s h s' h' -> laps b e rest 1 left s h s' h'
  | lap_more m left s h s1 h1 s' h' : pass b e s h s1 h1 ->
      laps b e rest m (left - 1) (back b (left - 1) rest s1) h1 s' h' -> laps b e rest (S m) left s h s' h'.
  (** The same for a read-to-end array, whose frame does not change; each element takes [k] bytes *)
  Inductive eof_laps (b e : N) (k : N) : nat -> st -> H -> st -> H -> Prop :=
  | eof_one s h s' h' : pass b e s h s' h' -> byte_pos s' = byte_pos s + k -> eof_laps b e k 1 s h s' h'
  | eof_more m s h s1 h1 s' h' : pass b e s h s1 h1 -> byte_pos s1 = byte_pos s + k ->
      eof_laps b e k m (set_ip (aligned s1 1) b) h1 s' h' -> eof_laps b e k (S m) s h s' h'.
End Arrays.

(** What holds of every state of a run (PropInstr.every_state_is_sane) *)
Definition sane (s : st) : Prop :=
  wf_bytes (buf s) /\ boff s < 8 /\ lenN (stk s) <= 8 /\ lenN (loops s) <= 8.

(** Bytes that open or close a loop; element code in which, read byte by byte, they are properly nested *)
Definition opens (b : N) : Prop := In b [0x34; 0x35; 0x36; 0x37; 0x3A; 0x3B].
Inductive balanced : list N -> Prop :=
| bal_nil : balanced []
| bal_byte b l : ~ opens b -> b <> 0x38 -> balanced l -> balanced (b :: l)
| bal_nest b l1 l2 : opens b -> balanced l1 -> balanced l2 -> balanced (b :: l1 ++ 0x38 :: l2).

(** ** Integer expressions *)
Inductive ibin := IAdd | ISub | IMul | IDiv | IMod | IAnd | IOr | IXor | IShl | IShr
| IEq | INe | IGt | ILt | IGe | ILe | ILAnd | ILOr.
Inductive iun := INeg | INot | ILNot.
Inductive iexpr :=
| ELit (v : N)
| EField (key : N)
| EBin (o : ibin) (a b : iexpr)
| EUn (o : iun) (a : iexpr).
Inductive eres := EVal (v : N) | EZeroDiv | EUndefined.

(** 64-bit unsigned arithmetic; shifts by 64 or more and negating the least signed number are undefined in C *)
Definition wrap64 (z : Z) : N := Z.to_N (z mod 2 ^ 64)%Z.
Definition truth (b : bool) : N := if b then 1 else 0.
Definition ibin_val (o : ibin) (a b : N) : eres :=
  match o with
  | IAdd => EVal (wrap64 (Z.of_N a + Z.of_N b)) | ISub => EVal (wrap64 (Z.of_N a - Z.of_N b))
  | IMul => EVal (wrap64 (Z.of_N a * Z.of_N b))
  | IDiv => if b =? 0 then EZeroDiv else EVal (a / b)
  | IMod => if b =? 0 then EZeroDiv else EVal (a mod b)
  | IAnd => EVal (N.land a b) | IOr => EVal (N.lor a b) | IXor => EVal (N.lxor a b)
  | IShl => if b <? 64 then EVal (wrap64 (Z.of_N a * 2 ^ Z.of_N b)) else EUndefined
  | IShr => if b <? 64 then EVal (a / 2 ^ b) else EUndefined
  | IEq => EVal (truth (a =? b)) | INe => EVal (truth (negb (a =? b)))
  | IGt => EVal (truth (b <? a)) | ILt => EVal (truth (a <? b))
  | IGe => EVal (truth (b <=? a)) | ILe => EVal (truth (a <=? b))
  | ILAnd => EVal (truth (negb (a =? 0) && negb (b =? 0))) | ILOr => EVal (truth (negb (a =? 0) || negb (b =? 0)))
  end.
Definition iun_val (o : iun) (a : N) : eres :=
  match o with
  | INeg => if a =? 2 ^ 63 then EUndefined else EVal (wrap64 (- Z.of_N a))
  | INot => EVal (wrap64 (-1 - Z.of_N a))
  | ILNot => EVal (truth (a =? 0))
  end.
(** Value of an expression given the values of the fields; left operand first *)
Fixpoint ieval (val : N -> N) (e : iexpr) : eres :=
  match e with
  | ELit v => EVal (v mod 2 ^ 64)
  | EField k => EVal (val k)
  | EBin o a b =>
    match ieval val a with
    | EVal x => match ieval val b with EVal y => ibin_val o x y | r => r end
    | r => r
    end
  | EUn o a => match ieval val a with EVal x => iun_val o x | r => r end
  end.
(** Postfix code *)
Definition ibin_op (o : ibin) : N :=
  match o with
  | IAdd => 0x72 | ISub => 0x73 | IMul => 0x74 | IDiv => 0x75 | IMod => 0x76
  | IAnd => 0xA0 | IOr => 0xA1 | IXor => 0xA2 | IShl => 0xA4 | IShr => 0xA5
  | IEq => 0x69 | INe => 0x6A | IGt => 0x6B | ILt => 0x6C | IGe => 0x6D | ILe => 0x6E | ILAnd => 0x6F | ILOr => 0x70
  end.
Definition iun_op (o : iun) : N := match o with INeg => 0x77 | INot => 0xA3 | ILNot => 0x71 end.
Fixpoint postfix (e : iexpr) : list N :=
  match e with
  | ELit v => 0x61 :: bytes_of LE 8 v
  | EField k => 0x60 :: bytes_of LE 2 k
  | EBin o a b => postfix a ++ postfix b ++ [ibin_op o]
  | EUn o a => postfix a ++ [iun_op o]
  end.
(** Stack slots it needs *)
Fixpoint slots (e : iexpr) : N :=
  match e with
  | ELit _ | EField _ => 1
  | EBin _ a b => N.max (slots a) (1 + slots b)
  | EUn _ a => slots a
  end.
(** Keys are 16 bits wide *)
Fixpoint keys_fit (e : iexpr) : Prop :=
  match e with
  | ELit _ => True
  | EField k => k < 2 ^ 16
  | EBin _ a b => keys_fit a /\ keys_fit b
  | EUn _ a => keys_fit a
  end.

(** ** Refusals that do not end the run *)

(** What the interpreter does after the host refused [rq] in the instruction at [s], other than
    ending the run with CND_ERR_CALLBACK.  [x] is how the instruction ended.
    - A string marked optional, while encoding: it is skipped.
    - The offer to fill a byte array in one call: the elements follow one by one, unless eight
      arrays are already open. *)
Definition carries_on (bc : list N) (s : st) (rq : request) (x : stepped) : Prop :=
  (0x30 <= opcode_at bc s <= 0x33 /\ md s = Enc /\ opt s = true /\
   exists s', x = SCont s' /\ buf s' = buf s /\ position s' = 8 * byte_pos s /\ opt s' = false) \/
  ((opcode_at bc s = 0x34 \/ 0x35 <= opcode_at bc s <= 0x37 \/ opcode_at bc s = 0x3B) /\
   exists n p d, rq = ask (rq_key rq) 0x39 (PBuf p d) (HRaw n) /\
   match x with
   | SCont s' => loops s' = (ip s', n) :: loops s /\ cur s' = p
   | SHalt e _ => e = EOob /\ lenN (loops s) = 8
   | SUndef _ => False
   end).

(** ** Conditions for termination *)

(** A pass of a read-to-end loop is complete and bytes are left, so another one follows *)
Definition repeats (bc : list N) (s : st) : Prop :=
  ip s < lenN bc /\ opcode_at bc s = 0x38 /\ byte_pos s < lenN (buf s) /\
  exists b rest, loops s = (b, 0xFFFFFFFF) :: rest.
Section Ends.
  Context {H : Type} (host : H -> request -> H * reply) (lm : libm) (bc : list N).
  (** Jump and switch instructions of the run only go forward *)
  Definition jumps_forward (s : st) (h : H) : Prop :=
    forall s1 h1 s2 h2 t, reaches host lm bc s h s1 h1 -> ip s1 < lenN bc ->
    0x50 <= opcode_at bc s1 <= 0x53 ->
    interp host (step lm bc s1) h1 = (SCont s2, h2, t) -> ip s1 < ip s2.
  (** Every pass of a read-to-end loop moves the position *)
  Definition passes_consume (s : st) (h : H) : Prop :=
    forall s1 h1 s2 h2 t s3 h3, reaches host lm bc s h s1 h1 -> repeats bc s1 ->
    interp host (step lm bc s1) h1 = (SCont s2, h2, t) ->
    reaches host lm bc s2 h2 s3 h3 -> repeats bc s3 -> loops s3 = loops s1 ->
    position s1 < position s3.
End Ends.

(** ** Decoding and the bytes it read *)

(** The machine is about to open a read-to-end array, or is inside one. (A count of 0xFFFFFFFF makes a
    counted array one of these too.) *)
Definition reading_to_end (bc : list N) (s : st) : Prop :=
  opcode_at bc s = 0x3A \/ exists b, In (b, 0xFFFFFFFF) (loops s).
(** Everything about two states is the same except for the bytes of the packet. *)
Definition same_but_packet (s1 s2 : st) : Prop := s2 = set_buf s1 (buf s2).
