(** Shared vocabulary of the model: bytes and numbers as [N], undefined
    behaviour as an explicit outcome, bounds-checked memory access. *)
From Coq Require Export List NArith ZArith Lia Bool.
From Coq Require Export ZifyBool ZifyNat ZifyN.
Export ListNotations.
Open Scope N_scope.

(** Kinds of undefined behaviour of the C program that the model can reach. *)
Inductive ubk :=
| UData      (* read or write outside data_buffer[0..data_len) *)
| UIl        (* read outside bytecode[0..bytecode_len) *)
| UStack     (* access outside one of the fixed-size stacks *)
| UShift     (* shift count negative or >= operand width *)
| UOverflow  (* signed integer overflow, INT64_MIN / -1 *)
| UFloat.    (* float to integer conversion out of range *)

Inductive result (A : Type) :=
| Ok (a : A)
| Ub (u : ubk).
Arguments Ok {A} a.
Arguments Ub {A} u.

Definition bindR {A B} (r : result A) (k : A -> result B) : result B :=
  match r with Ok a => k a | Ub u => Ub u end.
Notation "'let!' x ':=' e 'in' k" := (bindR e (fun x => k))
  (at level 200, x pattern, e at level 200, k at level 200, right associativity).

(** Length as [N] (a C size_t). *)
Definition lenN {A} (l : list A) : N := N.of_nat (length l).

(** [mem u l i]: read byte [i] of the object [l]; outside it is undefined behaviour. *)
Definition mem (u : ubk) (l : list N) (i : N) : result N :=
  if i <? lenN l then
    match nth_error l (N.to_nat i) with Some v => Ok v | None => Ub u end
  else Ub u.

Fixpoint upd {A} (l : list A) (n : nat) (v : A) : list A :=
  match l, n with
  | [], _ => []
  | _ :: r, O => v :: r
  | x :: r, S k => x :: upd r k v
  end.

(** [sto l i v]: store byte [v] at index [i] of the data buffer. *)
Definition sto (l : list N) (i v : N) : result (list N) :=
  if i <? lenN l then Ok (upd l (N.to_nat i) v) else Ub UData.

(** [n] bytes starting at [p]; undefined behaviour when they are not all inside. *)
Definition slice (u : ubk) (l : list N) (p n : N) : result (list N) :=
  if p + n <=? lenN l then Ok (firstn (N.to_nat n) (skipn (N.to_nat p) l)) else Ub u.

(** memcpy of the bytes [d] to position [p] of the data buffer. *)
Definition splice (l : list N) (p : N) (d : list N) : result (list N) :=
  if p + lenN d <=? lenN l then
    Ok (firstn (N.to_nat p) l ++ d ++ skipn (N.to_nat p + length d) l)
  else Ub UData.

Inductive endian := LE | BE.

(** Two's complement reading of an [8*w]-bit pattern, and its inverse. *)
Definition toS (w : N) (v : N) : Z :=
  if v <? 2 ^ (8 * w - 1) then Z.of_N v else (Z.of_N v - 2 ^ Z.of_N (8 * w))%Z.
Definition ofZ (w : N) (z : Z) : N := Z.to_N (z mod 2 ^ Z.of_N (8 * w))%Z.
Definition trunc (w : N) (v : N) : N := v mod 2 ^ (8 * w).

Definition wf_bytes (l : list N) : Prop := Forall (fun b => b < 256) l.
