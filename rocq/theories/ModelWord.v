(** src/vm/vm_internal.h lines 55-95 and 139-187: fixed-width loads and stores. *)
From Verif Require Import Base.

(** vm_internal.h:55-57 *)
Definition read_u8 (b : list N) (p : N) : result N := mem UData b p.

(** vm_internal.h:59-65 *)
Definition read_u16 (e : endian) (b : list N) (p : N) : result N :=
  let! b0 := mem UData b p in
  let! b1 := mem UData b (p + 1) in
  Ok (match e with
      | LE => N.lor b0 (N.shiftl b1 8)
      | BE => N.lor (N.shiftl b0 8) b1
      end).

(** vm_internal.h:67-73 *)
Definition read_u32 (e : endian) (b : list N) (p : N) : result N :=
  let! b0 := mem UData b p in
  let! b1 := mem UData b (p + 1) in
  let! b2 := mem UData b (p + 2) in
  let! b3 := mem UData b (p + 3) in
  Ok (match e with
      | LE => N.lor (N.lor (N.lor b0 (N.shiftl b1 8)) (N.shiftl b2 16)) (N.shiftl b3 24)
      | BE => N.lor (N.lor (N.lor (N.shiftl b0 24) (N.shiftl b1 16)) (N.shiftl b2 8)) b3
      end).

(** vm_internal.h:75-95 *)
Definition read_u64 (e : endian) (b : list N) (p : N) : result N :=
  let! b0 := mem UData b p in
  let! b1 := mem UData b (p + 1) in
  let! b2 := mem UData b (p + 2) in
  let! b3 := mem UData b (p + 3) in
  let! b4 := mem UData b (p + 4) in
  let! b5 := mem UData b (p + 5) in
  let! b6 := mem UData b (p + 6) in
  let! b7 := mem UData b (p + 7) in
  Ok (match e with
      | LE => N.lor (N.lor (N.lor (N.lor (N.lor (N.lor (N.lor b0 (N.shiftl b1 8))
                (N.shiftl b2 16)) (N.shiftl b3 24)) (N.shiftl b4 32)) (N.shiftl b5 40))
                (N.shiftl b6 48)) (N.shiftl b7 56)
      | BE => N.lor (N.lor (N.lor (N.lor (N.lor (N.lor (N.lor (N.shiftl b0 56) (N.shiftl b1 48))
                (N.shiftl b2 40)) (N.shiftl b3 32)) (N.shiftl b4 24)) (N.shiftl b5 16))
                (N.shiftl b6 8)) b7
      end).

Definition byte_at (v k : N) : N := N.land (N.shiftr v k) 255.

(** vm_internal.h:139-141; the parameter has type uint8_t *)
Definition write_u8 (b : list N) (p v : N) : result (list N) := sto b p (trunc 1 v).

(** vm_internal.h:143-151 *)
Definition write_u16 (e : endian) (b : list N) (p v : N) : result (list N) :=
  match e with
  | LE => let! b := sto b p (byte_at v 0) in sto b (p + 1) (byte_at v 8)
  | BE => let! b := sto b p (byte_at v 8) in sto b (p + 1) (byte_at v 0)
  end.

(** vm_internal.h:153-165 *)
Definition write_u32 (e : endian) (b : list N) (p v : N) : result (list N) :=
  match e with
  | LE => let! b := sto b p (byte_at v 0) in
          let! b := sto b (p + 1) (byte_at v 8) in
          let! b := sto b (p + 2) (byte_at v 16) in
          sto b (p + 3) (byte_at v 24)
  | BE => let! b := sto b p (byte_at v 24) in
          let! b := sto b (p + 1) (byte_at v 16) in
          let! b := sto b (p + 2) (byte_at v 8) in
          sto b (p + 3) (byte_at v 0)
  end.

(** vm_internal.h:167-187 *)
Definition write_u64 (e : endian) (b : list N) (p v : N) : result (list N) :=
  match e with
  | LE => let! b := sto b p (byte_at v 0) in
          let! b := sto b (p + 1) (byte_at v 8) in
          let! b := sto b (p + 2) (byte_at v 16) in
          let! b := sto b (p + 3) (byte_at v 24) in
          let! b := sto b (p + 4) (byte_at v 32) in
          let! b := sto b (p + 5) (byte_at v 40) in
          let! b := sto b (p + 6) (byte_at v 48) in
          sto b (p + 7) (byte_at v 56)
  | BE => let! b := sto b p (byte_at v 56) in
          let! b := sto b (p + 1) (byte_at v 48) in
          let! b := sto b (p + 2) (byte_at v 40) in
          let! b := sto b (p + 3) (byte_at v 32) in
          let! b := sto b (p + 4) (byte_at v 24) in
          let! b := sto b (p + 5) (byte_at v 16) in
          let! b := sto b (p + 6) (byte_at v 8) in
          sto b (p + 7) (byte_at v 0)
  end.

(** The widths for which the interpreter has a load and a store.  The C code
    selects the function by field type; this selects it by width. *)
Inductive width := W1 | W2 | W4 | W8.
Definition wbytes (w : width) : N :=
  match w with W1 => 1 | W2 => 2 | W4 => 4 | W8 => 8 end.

Definition read_word (w : width) (e : endian) (b : list N) (p : N) : result N :=
  match w with
  | W1 => read_u8 b p
  | W2 => read_u16 e b p
  | W4 => read_u32 e b p
  | W8 => read_u64 e b p
  end.

(** The stored value is first converted to the parameter type of the store function. *)
Definition write_word (w : width) (e : endian) (b : list N) (p v : N) : result (list N) :=
  match w with
  | W1 => write_u8 b p v
  | W2 => write_u16 e b p (trunc 2 v)
  | W4 => write_u32 e b p (trunc 4 v)
  | W8 => write_u64 e b p (trunc 8 v)
  end.
