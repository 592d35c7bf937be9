(** What decode --hex promises, on its own: bytes as pairs of hexadecimal digits; and programs without byte arrays. *)
From Verif Require Import Base.

(** The number that an upper-case hexadecimal digit stands for *)
Definition digit_of (c : N) : option N :=
  if (48 <=? c) && (c <=? 57) then Some (c - 48) else if (65 <=? c) && (c <=? 70) then Some (c - 55) else None.
(** The bytes that a text of hexadecimal digits stands for *)
Fixpoint bytes_shown (l : list N) : option (list N) :=
  match l with
  | [] => Some []
  | [_] => None
  | a :: b :: r => match digit_of a, digit_of b, bytes_shown r with
                   | Some x, Some y, Some t => Some (16 * x + y :: t)
                   | _, _, _ => None
                   end
  end.

(** A bytecode with nothing that opens, or passes for, an array of bytes: no raw bytes (0x39), no one-byte elements right behind the
    opening of an array, and not the number 0x10 in the place where the tool expects the kind of the elements. *)
Definition code_at (bc : list N) (p : nat) : N := nth p bc 0.
Definition one_byte (bc : list N) (p : nat) : bool := ((code_at bc p =? 0x10) || (code_at bc p =? 0x14)) && (code_at bc (p + 3) =? 0x38).
Definition passes (bc : list N) (p : nat) : bool :=
  let op := code_at bc p in
  if op =? 0x39 then true
  else if op =? 0x34 then one_byte bc (p + 7) || (code_at bc (p + 13) =? 0x10)
  else if op =? 0x3B then one_byte bc (p + 5) || (code_at bc (p + 7) =? 0x10)
  else if (op =? 0x35) || (op =? 0x36) || (op =? 0x37) then one_byte bc (p + 3) || (code_at bc (p + 5) =? 0x10)
  else false.
Definition no_byte_arrays (bc : list N) : bool := forallb (fun p => negb (passes bc p)) (seq 0 (length bc)).
