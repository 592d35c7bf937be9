(** Independent specification of byte order: positional notation in base 256. *)
From Verif Require Import Base.

(** Value of a byte list, least significant byte first. *)
Fixpoint le_val (l : list N) : N :=
  match l with [] => 0 | b :: r => b + 256 * le_val r end.
(** The [n] base-256 digits of [v], least significant first. *)
Fixpoint le_bytes (n : nat) (v : N) : list N :=
  match n with O => [] | S k => v mod 256 :: le_bytes k (v / 256) end.

Definition val_of (e : endian) (l : list N) : N :=
  match e with LE => le_val l | BE => le_val (rev l) end.
Definition bytes_of (e : endian) (n : nat) (v : N) : list N :=
  match e with LE => le_bytes n v | BE => rev (le_bytes n v) end.

(** The byte of [b] at index [i] (0 outside) and the [n] bytes from [p]. *)
Definition nthN (b : list N) (i : N) : N := nth (N.to_nat i) b 0.
Definition sub (b : list N) (p n : N) : list N :=
  firstn (N.to_nat n) (skipn (N.to_nat p) b).
(** [b] with [d] written at [p]. *)
Definition put (b : list N) (p : N) (d : list N) : list N :=
  firstn (N.to_nat p) b ++ d ++ skipn (N.to_nat p + length d) b.

(** Bit [i] of the buffer seen as a bit stream: in little-endian order the first bit of a byte
    is its least significant one, in big-endian order its most significant one. *)
Definition sbit (e : endian) (b : list N) (i : N) : bool :=
  N.testbit (nthN b (i / 8)) (match e with LE => i mod 8 | BE => 7 - i mod 8 end).
