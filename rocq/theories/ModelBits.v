(** src/vm/vm_internal.h lines 97-135 and 189-230: bit-level I/O.
    [cur] and [boff] are ctx->cursor and ctx->bit_offset. *)
From Verif Require Import Base ModelWord.

(** vm_internal.h:128-132 and 224-228 *)
Definition bit_advance (cur boff : N) : N * N :=
  if 8 <=? boff + 1 then (cur + 1, 0) else (cur, boff + 1).

(** vm_internal.h:109-134, the per-bit loop.  [n] iterations are left, [i] is the loop index. *)
Fixpoint read_bits_loop (e : endian) (b : list N) (n : nat) (i val cur boff : N)
  : result (N * N * N) :=
  match n with
  | O => Ok (val, cur, boff)
  | S n' =>
    if lenN b <=? cur then Ok (val, cur, boff)
    else
      let! byte := mem UData b cur in
      let! val' :=
        match e with
        | BE => let bit := N.land (N.shiftr byte (7 - boff)) 1 in
                Ok (N.lor (trunc 8 (N.shiftl val 1)) bit)
        | LE => let bit := N.land (N.shiftr byte boff) 1 in
                if bit =? 0 then Ok val
                else if 64 <=? i then Ub UShift
                else Ok (N.lor val (N.shiftl 1 i))
        end in
      let '(cur', boff') := bit_advance cur boff in
      read_bits_loop e b n' (i + 1) val' cur' boff'
  end.

(** The width of the byte-aligned shortcut, vm_internal.h:102-105 *)
Definition fast_width (bytes : N) : option width :=
  match bytes with
  | 1 => Some W1 | 2 => Some W2 | 4 => Some W4 | 8 => Some W8 | _ => None
  end.

(** vm_internal.h:99-107 and 191-199: when the shortcut is taken *)
Definition fast_path (b : list N) (cur boff count : N) : option width :=
  if (boff =? 0) && (N.land count 7 =? 0) then
    let bytes := count / 8 in
    if cur + bytes <=? lenN b then fast_width bytes else None
  else None.

(** vm_internal.h:97-135.  Result: value, cursor, bit offset. *)
Definition read_bits (e : endian) (b : list N) (cur boff count : N) : result (N * N * N) :=
  match fast_path b cur boff count with
  | Some w => let! v := read_word w e b cur in Ok (v, cur + wbytes w, boff)
  | None => read_bits_loop e b (N.to_nat count) 0 0 cur boff
  end.

(** vm_internal.h:201-229, the per-bit loop *)
Fixpoint write_bits_loop (e : endian) (count val : N) (n : nat) (i : N) (b : list N) (cur boff : N)
  : result (list N * N * N) :=
  match n with
  | O => Ok (b, cur, boff)
  | S n' =>
    if lenN b <=? cur then Ok (b, cur, boff)
    else
      let sh := match e with BE => count - 1 - i | LE => i end in
      if 64 <=? sh then Ub UShift else
      let bit := N.land (N.shiftr val sh) 1 in
      let mask := N.shiftl 1 (match e with BE => 7 - boff | LE => boff end) in
      let! byte := mem UData b cur in
      let byte' := if bit =? 0 then N.ldiff byte mask else N.lor byte mask in
      let! b' := sto b cur byte' in
      let '(cur', boff') := bit_advance cur boff in
      write_bits_loop e count val n' (i + 1) b' cur' boff'
  end.

(** vm_internal.h:189-230.  Result: buffer, cursor, bit offset. *)
Definition write_bits (e : endian) (b : list N) (cur boff val count : N)
  : result (list N * N * N) :=
  match fast_path b cur boff count with
  | Some w => let! b' := write_word w e b cur val in Ok (b', cur + wbytes w, boff)
  | None => write_bits_loop e count val (N.to_nat count) 0 b cur boff
  end.
