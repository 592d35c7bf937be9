(** What the documentation of the callback says about its pointer (concordia.h:15-146, 204-212): the type it is told determines what
    the pointer points to. *)
From Verif Require Import Base SpecBytes ModelWord ModelVM.

(** Bytes of the number behind the pointer, by the type *)
Definition number_size (op : N) : option N :=
  if (op =? 0x10) || (op =? 0x14) || (op =? 0x1A) || (op =? 0x22) then Some 1          (* u8, i8, bool, one-bit bool *)
  else if (op =? 0x11) || (op =? 0x15) then Some 2                                     (* u16, i16 *)
  else if (op =? 0x12) || (op =? 0x16) || (op =? 0x18) then Some 4                     (* u32, i32, float *)
  else if (op =? 0x13) || (op =? 0x17) || (op =? 0x19) then Some 8                     (* u64, i64, double *)
  else if (op =? 0x20) || (op =? 0x21) then Some 8                                     (* bit fields *)
  else if op =? 0x35 then Some 1 else if op =? 0x36 then Some 2                        (* counts of arrays *)
  else if (op =? 0x37) || (op =? 0x34) || (op =? 0x3B) then Some 4
  else if (op =? 0x06) || (op =? 0x60) || (op =? 0x78) then Some 8                     (* queries and computed values *)
  else None.
Definition text_type (op : N) : bool := (op =? 0x30) || (op =? 0x31) || (op =? 0x32) || (op =? 0x33).
Definition bare_type (op : N) : bool := (op =? 0x03) || (op =? 0x04) || (op =? 0x38).  (* structures and the end of an array *)

(** The call tells the type of what it points to: a number of that size; a string pointer to fill in (encoding); bytes of the packet,
    [size] bytes long (a string being decoded, raw bytes); nothing *)
Definition told (m : mode) (size : N) (rq : request) : Prop :=
  match rq_pl rq with
  | PInt w _ => number_size (rq_op rq) = Some (wbytes w)
  | PStr => m = Enc /\ text_type (rq_op rq) = true
  | PBuf p l => (m = Dec /\ text_type (rq_op rq) = true \/ rq_op rq = 0x39) /\ p + lenN l <= size
  | PNone => bare_type (rq_op rq) = true
  end.

(** Bytes of the length in front of a string, by the type; strings ended by a NUL have none *)
Definition prefix_size (op : N) : option N := match op with 0x31 => Some 1 | 0x32 => Some 2 | 0x33 => Some 4 | _ => None end.
(** A string pointed to while decoding the packet [b] is all of the string in the packet: its bytes are there, and right in front of
    them their number in the byte order [e]; or none of them is a NUL, the packet has a byte behind them, and this is a NUL unless the
    string has the greatest length allowed. *)
Definition text_told (b : list N) (e : endian) (rq : request) : Prop := forall p l, rq_pl rq = PBuf p l -> rq_op rq <> 0x39 ->
  sub b p (lenN l) = l /\ p + lenN l <= lenN b /\
  ((exists n, prefix_size (rq_op rq) = Some n /\ n <= p /\ val_of e (sub b (p - n) n) = lenN l) \/
   (rq_op rq = 0x30 /\ exists max, rq_how rq = HString 0x30 max /\ Forall (fun c => c <> 0) l /\ p + lenN l < lenN b /\ (lenN l < max -> nthN b (p + lenN l) = 0))).
