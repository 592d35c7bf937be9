(** Independent definition of a cyclic redundancy check: the bit-serial shift register. *)
From Verif Require Import Base SpecBytes ModelVM SpecVM.

(** A byte as 8 bits in the order they enter the register: most significant first, or least significant
    first with reflected input *)
Definition byte_bits (refin : bool) (b : N) : list bool :=
  map (fun i => N.testbit b (if refin then i else 7 - i)) [0; 1; 2; 3; 4; 5; 6; 7].
Definition message_bits (refin : bool) (data : list N) : list bool := flat_map (byte_bits refin) data.

(** Register of [w] bits: shift left, and subtract the polynomial if the bit shifted out differs from the message bit *)
Definition crc_feed (w poly : N) (reg : N) (m : bool) : N :=
  N.lxor ((2 * reg) mod 2 ^ w) (if xorb (N.testbit reg (w - 1)) m then poly else 0).

(** [v] with its [w] bits in reverse order *)
Definition reversed (w v : N) : N :=
  fold_right (fun i a => if N.testbit v (w - 1 - N.of_nat i) then a + 2 ^ N.of_nat i else a) 0 (seq 0 (N.to_nat w)).

Definition crc_spec (w poly init xorout : N) (refin refout : bool) (data : list N) : N :=
  let reg := fold_left (crc_feed w poly) (message_bits refin data) init in
  N.lxor (if refout then reversed w reg else reg) xorout.

(** Bit [i] of the message, counted in the order they enter the register *)
Definition message_bit (refin : bool) (data : list N) (i : N) : bool :=
  N.testbit (nthN data (i / 8)) (if refin then i mod 8 else 7 - i mod 8).

(** The CRC instructions: polynomial, initial register, final xor ([n] bytes each) and a byte of flags.
    For the parameters of the usual CRC-32 (C22) the initial register is taken with its bits reversed. *)
Definition crc_size (op : N) : option N := match op with 0x44 => Some 2 | 0x49 => Some 4 | _ => None end.
Definition crc_start (w poly : N) (refin refout : bool) (init : N) : N :=
  if (w =? 32) && (poly =? 0x04C11DB7) && refin && refout then reversed 32 init else init.
Definition field_crc (bc : list N) (s : st) (n : N) (data : list N) : N :=
  let poly := operand_at bc s 1 n in let flags := operand_at bc s (1 + 3 * n) 1 in
  let refin := N.testbit flags 0 in let refout := N.testbit flags 1 in
  crc_spec (8 * n) poly (crc_start (8 * n) poly refin refout (operand_at bc s (1 + n) n))
    (operand_at bc s (1 + 2 * n) n) refin refout data.
