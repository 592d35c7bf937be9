(** What a verified program looks like: a sequence of whole instructions of known kinds whose jump and
    switch targets lie inside the code.  Independent of the verifier's control flow and arithmetic. *)
From Verif Require Import Base SpecBytes.

(** Unsigned and signed little-endian words of the code *)
Definition word (bc : list N) (p n : N) : N := val_of LE (sub bc p n).
Definition offset (bc : list N) (p : N) : Z :=
  let v := Z.of_N (word bc p 4) in if (v <? 2 ^ 31)%Z then v else (v - 2 ^ 32)%Z.

(** Total size of an instruction in the verifier's view, by opcode: (first, last, size) *)
Definition sizes : list (N * N * N) :=
  [ (0x00, 0x05, 1); (0x06, 0x06, 3); (0x07, 0x07, 1);
    (0x10, 0x1A, 3); (0x20, 0x22, 3); (0x23, 0x24, 2); (0x25, 0x26, 1);
    (0x30, 0x30, 5); (0x31, 0x33, 3); (0x34, 0x34, 7); (0x35, 0x37, 3); (0x38, 0x38, 1); (0x39, 0x39, 7);
    (0x3A, 0x3B, 1); (0x40, 0x41, 12); (0x42, 0x42, 20); (0x43, 0x43, 19); (0x44, 0x44, 1); (0x49, 0x4A, 1);
    (0x50, 0x50, 5); (0x51, 0x51, 7); (0x52, 0x52, 5); (0x53, 0x53, 7);
    (0x60, 0x60, 1); (0x61, 0x61, 9); (0x62, 0x65, 1); (0x69, 0x78, 1);
    (0x80, 0x8B, 1); (0x90, 0x97, 1); (0xA0, 0xA5, 1) ].
Definition size_of (op : N) : option N :=
  match find (fun '(a, b, _) => (a <=? op) && (op <=? b)) sizes with
  | Some (_, _, n) => Some n
  | None => None
  end.

(** A target relative to [base] that is a position of the code *)
Definition inside (bc : list N) (base : N) (p : N) : Prop :=
  (0 <= Z.of_N base + offset bc p < Z.of_N (lenN bc))%Z.

(** The table of a switch at [p]: its position is relative to the end of the instruction and computed
    modulo 2^32, so a table can also lie before the instruction *)
Definition table_at (bc : list N) (p : N) : N := (p + 7 + word bc (p + 3) 4) mod 2 ^ 32.

(** Sparse switch: number of cases, default offset, then (value, offset) pairs *)
Definition good_switch (bc : list N) (p : N) : Prop :=
  let t := table_at bc p in let n := word bc t 2 in
  t + 6 + 12 * n <= lenN bc /\ inside bc (p + 7) (t + 2) /\
  forall i, i < n -> inside bc (p + 7) (t + 6 + 12 * i + 8).

(** Dense switch: least and greatest value, default offset, one offset per value.  A table for all 2^64
    values is treated as a table without entries. *)
Definition full_range (bc : list N) (p : N) : Prop :=
  let t := table_at bc p in word bc (t + 8) 8 - word bc t 8 = 2 ^ 64 - 1.
Definition good_table (bc : list N) (p : N) : Prop :=
  let t := table_at bc p in let mn := word bc t 8 in let mx := word bc (t + 8) 8 in
  mn <= mx /\ inside bc (p + 7) (t + 16) /\ t + 20 <= lenN bc /\
  (full_range bc p \/
   (t + 20 + 4 * (mx - mn + 1) <= lenN bc /\
    forall i, mn <= i <= mx -> inside bc (p + 7) (t + 20 + 4 * (i - mn)))).

(** The instruction of size [n] at [p] is acceptable *)
Definition good_instr (bc : list N) (p n : N) : Prop :=
  size_of (nthN bc p) = Some n /\ p + n <= lenN bc /\
  (nthN bc p = 0x50 \/ nthN bc p = 0x52 -> inside bc (p + 5) (p + 1)) /\
  (nthN bc p = 0x51 -> good_switch bc p) /\
  (nthN bc p = 0x53 -> good_table bc p).

(** [l] are the instruction starts from [p] to the end of the code, all acceptable *)
Inductive instrs (bc : list N) : N -> list N -> Prop :=
| instrs_end : instrs bc (lenN bc) []
| instrs_cons p n l : good_instr bc p n -> instrs bc (p + n) l -> instrs bc p (p :: l).
Definition good_program (bc : list N) : Prop := exists l, instrs bc 0 l.

(** Acceptable instructions lead from [p] to [q] *)
Inductive walks (bc : list N) : N -> N -> Prop :=
| walks_here p : walks bc p p
| walks_on p n q : good_instr bc p n -> walks bc (p + n) q -> walks bc p q.
(** A dense switch whose greatest value is below its least *)
Definition empty_table (bc : list N) (p : N) : Prop :=
  nthN bc p = 0x53 /\ p + 7 <= lenN bc /\ table_at bc p + 20 <= lenN bc /\
  word bc (table_at bc p + 8) 8 < word bc (table_at bc p) 8.

(** ** Programs on which the verifier and the interpreter agree *)

(** Opcodes whose operands have the same size in the verifier and in the interpreter.  The others that the
    verifier accepts (0x03 0x05 0x06 0x07 0x20 0x21 0x3A 0x3B 0x40-0x44 0x49 0x60 0x65 0x78) have not. *)
Definition agreed (op : N) : bool :=
  existsb (fun '(a, b) => (a <=? op) && (op <=? b))
    [ (0x00, 0x02); (0x04, 0x04); (0x10, 0x1A); (0x22, 0x26); (0x30, 0x39); (0x4A, 0x4A); (0x50, 0x53);
      (0x61, 0x64); (0x69, 0x77); (0x80, 0x8B); (0x90, 0x97); (0xA0, 0xA5) ].

(** The positions a jump or switch instruction at [p] can lead to *)
Definition target (bc : list N) (base p : N) : N := Z.to_N (Z.of_N base + offset bc p).
Inductive leads (bc : list N) (p : N) : N -> Prop :=
| leads_jump : nthN bc p = 0x50 \/ nthN bc p = 0x52 -> leads bc p (target bc (p + 5) (p + 1))
| leads_on : nthN bc p = 0x50 -> leads bc p (p + 5)
| leads_default : nthN bc p = 0x51 -> leads bc p (target bc (p + 7) (table_at bc p + 2))
| leads_case i : nthN bc p = 0x51 -> i < word bc (table_at bc p) 2 ->
    leads bc p (target bc (p + 7) (table_at bc p + 6 + 12 * i + 8))
| leads_table_default : nthN bc p = 0x53 -> leads bc p (target bc (p + 7) (table_at bc p + 16))
| leads_entry i : nthN bc p = 0x53 -> word bc (table_at bc p) 8 <= i <= word bc (table_at bc p + 8) 8 ->
    leads bc p (target bc (p + 7) (table_at bc p + 20 + 4 * (i - word bc (table_at bc p) 8))).

(** The table of the switch at [p] lies after it, and is not a dense table for all 2^64 values *)
Definition table_ahead (bc : list N) (p : N) : Prop :=
  (nthN bc p = 0x51 \/ nthN bc p = 0x53 -> p + 7 + word bc (p + 3) 4 <= lenN bc) /\
  (nthN bc p = 0x53 -> ~ full_range bc p).

Record plain (bc : list N) : Prop := {
  p_agreed : forall p, walks bc 0 p -> p < lenN bc -> agreed (nthN bc p) = true;
  p_tables : forall p, walks bc 0 p -> p < lenN bc -> table_ahead bc p;
  (** jumps and switches lead to instructions *)
  p_leads : forall p q, walks bc 0 p -> p < lenN bc -> leads bc p q -> walks bc 0 q;
  (** the byte that ends an array occurs only as an instruction *)
  p_end : forall p, p < lenN bc -> nthN bc p = 0x38 -> walks bc 0 p }.
