(** What decoding an encoded message should report: the vocabulary of property C12. *)
From Verif Require Import Base SpecBytes ModelWord ModelFloat ModelTrans ModelVM SpecVM.

(** The variable behind the pointer after the callback *)
Definition after (rq : request) (r : reply) : N :=
  match rq_pl rq with PInt w v => answer (wbytes w) v r | _ => 0 end.

(** The bit pattern stored for a field of type [ty] when the host supplied [x] under transform [t], and what is
    shown for a stored pattern.  Without a transform both are the value itself; properties C16 and C47 say what
    they are under a transform. *)
Definition stored_as (ty : N) (t : trans) (x : N) : result N :=
  match int_type ty with
  | Some it => to_wire it t x
  | None => if ty =? 0x1A then Ok x else f_to_wire (ty =? 0x19) t x
  end.
Definition shown_as (ty : N) (t : trans) (raw : N) : result N :=
  match int_type ty with
  | Some it => from_wire it t raw
  | None => if ty =? 0x1A then Ok raw else f_from_wire (ty =? 0x19) t raw
  end.
Definition field_bytes (ty : N) : N := match emit_width ty with Some w => wbytes w | None => 0 end.
(** The value supplied, normalised to what the field can carry *)
Definition normalised (ty : N) (t : trans) (x v : N) : Prop :=
  match t with
  | TNone => v = x
  | _ => exists raw, stored_as ty t x = Ok raw /\ shown_as ty t (raw mod 2 ^ (8 * field_bytes ty)) = Ok v
  end.
(** The low [n] bits of [z] read as a two's complement number *)
Definition signed_low (n : N) (z : Z) : Z :=
  ((z + 2 ^ (Z.of_N n - 1)) mod 2 ^ Z.of_N n - 2 ^ (Z.of_N n - 1))%Z.

(** The encoder's host was asked [rq0] and answered [r0]; the call [rq] tells the decoder's host the same. *)
Definition tells (rq0 : request) (r0 : reply) (rq : request) : Prop :=
  rq_key rq = rq_key rq0 /\ rq_op rq = rq_op rq0 /\ rq_how rq = rq_how rq0 /\
  match rq_how rq0 with
  | HNote | HQuery | HStore | HMissing _ => rq_pl rq = rq_pl rq0
  | HCount =>
    (* the count read from the message, or the count the encoder's host was shown *)
    if (0x35 <=? rq_op rq0) && (rq_op rq0 <=? 0x37)
    then exists w, rq_pl rq0 = PInt w 0 /\ rq_pl rq = PInt w (after rq0 r0)
    else rq_pl rq = rq_pl rq0
  | HField ty t => exists w v, rq_pl rq0 = PInt w 0 /\ rq_pl rq = PInt w v /\ normalised ty t (after rq0 r0) v
  | HBitU n => rq_pl rq = PInt W8 (after rq0 r0 mod 2 ^ n)
  | HBitI n => exists v, rq_pl rq = PInt W8 v /\ v < 2 ^ 64 /\
      number 8 true v = signed_low n (number 8 true (after rq0 r0))
  | HBitBool => rq_pl rq = PInt W1 (after rq0 r0)
  | HString ty max => exists pos, rq_pl rq = PBuf pos (cut max (got_str r0))
  | HRaw n => exists pos old, rq_pl rq0 = PBuf pos old /\
      if r_ok r0
      then (* what the host stored, and where it stored nothing what was there before *)
        rq_pl rq = PBuf pos (cut n (map (fun x => x mod 256) (r_bytes r0)) ++
                             skipn (length (cut n (map (fun x => x mod 256) (r_bytes r0)))) old)
      else exists now, rq_pl rq = PBuf pos now /\ lenN now = n
  | HConst => False
  end.

(** Calls of the decoder's host that tell the encoder's calls, in order; constants found in the message are
    reported in addition *)
Inductive reports : list event -> list event -> Prop :=
| rep_nil : reports [] []
| rep_call rq0 r0 t rq r u : tells rq0 r0 rq -> reports t u -> reports ((rq0, r0) :: t) ((rq, r) :: u)
| rep_const t rq r u : rq_how rq = HConst -> reports t u -> reports t ((rq, r) :: u).

(** The decoder's host cooperates: it accepts what the encoder's host accepted, answers queries with the
    value the encoder's host gave (and does not change counts otherwise), and does not write to the packet.
    [like t g]: that is what it will do in state [g] when told [t]. *)
Definition alike (rq0 : request) (r0 : reply) (rq : request) (r : reply) : Prop :=
  r_ok r = r_ok r0 /\ r_bytes r = [] /\
  match rq_how rq0 with HQuery | HCount => after rq r = after rq0 r0 | _ => True end.
Definition cooperates {G} (host2 : G -> request -> G * reply) (like : list event -> G -> Prop) : Prop :=
  (forall rq0 r0 t g rq g' r, like ((rq0, r0) :: t) g -> tells rq0 r0 rq -> host2 g rq = (g', r) ->
     alike rq0 r0 rq r /\ like t g') /\
  (forall t g rq g' r, like t g -> rq_how rq = HConst -> host2 g rq = (g', r) ->
     r_ok r = true /\ r_bytes r = [] /\ like t g').

(** Calls whose effect decoding can undo: a transformed value whose stored pattern can be converted back, a bit
    field no wider than 64 bits (and not empty if signed), a string that was supplied *)
Definition comes_back (ev : event) : Prop :=
  match rq_how (fst ev) with
  | HField ty t => forall raw, stored_as ty t (after (fst ev) (snd ev)) = Ok raw ->
      exists v, shown_as ty t (raw mod 2 ^ (8 * field_bytes ty)) = Ok v
  | HBitU n => n <= 64
  | HBitI n => 1 <= n <= 64
  | HString _ _ => r_ok (snd ev) = true
  | _ => True
  end.
(** A computed field of a type other than float whose value does not fit, as an unsigned number *)
Definition computed_too_big (bc : list N) (s : st) : Prop :=
  let ty := nthN bc (ip s + 1) in
  opcode_at bc s = 0x65 /\ ty <> 0x18 /\ ty <> 0x19 /\ exists v r, stk s = v :: r /\ 2 ^ (8 * field_bytes ty) <= v.

(** A bit field or padding that does not fit into what is left of the buffer (it would be cut off silently).  The
    width operand follows the key, which is not skipped if the bytecode ends within it. *)
Definition bit_width (bc : list N) (s : st) : N :=
  let op := opcode_at bc s in
  if (op =? 0x20) || (op =? 0x21) then nthN bc (if ip s + 3 <=? lenN bc then ip s + 3 else ip s + 1)
  else if op =? 0x22 then 1
  else if op =? 0x23 then nthN bc (ip s + 1)
  else 0.
Definition runs_out_of_bits (bc : list N) (s : st) : Prop :=
  bit_width bc s <> 0 /\ 8 * lenN (buf s) < position s + bit_width bc s.

(** A host that answers as the encoder's host did, without writing to the packet *)
Definition replay (l : list reply) (rq : request) : list reply * reply :=
  match rq_how rq with
  | HConst => (l, {| r_ok := true; r_val := None; r_str := None; r_bytes := [] |})
  | _ => match l with
         | [] => ([], {| r_ok := false; r_val := None; r_str := None; r_bytes := [] |})
         | r :: l' => (l', {| r_ok := r_ok r; r_val := r_val r; r_str := None; r_bytes := [] |})
         end
  end.
