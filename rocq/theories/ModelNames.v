(** What the compiler does to the names a program refers to: dropping unused names
    (optimize_strings, src/compiler/cndc.c) and prefixing the names of a nested structure
    (buf_append_with_prefix, src/compiler/cnd_utils.c). *)
From Verif Require Import Base ModelVM ModelImage ModelText.

(** get_type_size, cndc.c:6-15 *)
Definition get_type_size (t : N) : N :=
  match t with
  | 0x10 | 0x14 => 1 | 0x11 | 0x15 => 2 | 0x12 | 0x16 | 0x18 => 4 | 0x13 | 0x17 | 0x19 => 8
  | 0x1A => 1
  | _ => 0
  end.

(** Reads of the compiler's own buffer, each preceded in the code by a length check: a byte, and
    an integer of two or four bytes read through a pointer cast (little-endian host). *)
Definition rd (bc : list N) (p : N) : N := nth (N.to_nat p) bc 0.
Definition rd2 (bc : list N) (p : N) : N := rd bc p + 256 * rd bc (p + 1).
Definition rd4 (bc : list N) (p : N) : N := rd2 bc p + 65536 * rd2 bc (p + 2).

(** The opcodes followed by a name, cndc.c:31-43 and 154-166 *)
Definition keyed (op : N) : bool :=
  (op =? 0x07) || (op =? 0x03) || (0x10 <=? op) && (op <=? 0x1A) || (0x20 <=? op) && (op <=? 0x22)
  || (0x30 <=? op) && (op <=? 0x33) || (0x34 <=? op) && (op <=? 0x37) || (op =? 0x3A) || (op =? 0x3B)
  || (op =? 0x40) || (op =? 0x51) || (op =? 0x60) || (op =? 0x06) || (op =? 0x78).

(** The operands after the name (if any), cndc.c:52-132 and 178-245: where the next instruction
    starts when these operands start at [off].  Only the first pass ([poly = true]) knows
    TRANS_POLY and TRANS_SPLINE.  A [break] inside the switch leaves the switch only.  ARR_DYNAMIC's
    second name is handled by the callers.  Offsets are size_t; the sums are below 2^33 and do not wrap. *)
Definition skip_args (poly : bool) (op : N) (bc : list N) (off : N) : N :=
  let len := lenN bc in
  let typed n := if len <? off + 1 then off else off + 1 + n * get_type_size (rd bc off) in
  match op with
  | 0x05 | 0x20 | 0x21 | 0x22 | 0x23 | 0x24 => off + 1
  | 0x34 => off + 4
  | 0x3B => if len <? off + 2 then off else off + 2
  | 0x39 => if len <? off + 4 then off else off + 4 + rd4 bc off
  | 0x40 | 0x41 => typed 1
  | 0x42 => typed 2
  | 0x4B => if len <? off + 3 then off else off + 3 + rd2 bc (off + 1) * get_type_size (rd bc off)
  | 0x44 => off + 7
  | 0x49 => off + 13
  | 0x43 => off + 16
  | 0x45 | 0x46 | 0x47 | 0x48 => off + 8
  | 0x4C => if poly then if len <? off + 1 then off else off + 1 + rd bc off * 8 else off
  | 0x4D => if poly then if len <? off + 1 then off else off + 1 + rd bc off * 16 else off
  | 0x50 | 0x52 => off + 4
  | 0x51 => if len <? off + 4 then off else off + 4
  | 0x61 => typed 1
  | 0x30 => off + 2
  | _ => off
  end.

(** Setting [used[id]] when the id is in range (cndc.c:47 and 62) *)
Definition mark_id (used : list bool) (id : N) : list bool :=
  firstn (N.to_nat id) used ++ match skipn (N.to_nat id) used with [] => [] | _ :: r => true :: r end.

(** First pass, cndc.c:20-133 *)
Fixpoint mark (fuel : nat) (bc : list N) (off : N) (used : list bool) : option (list bool) :=
  match fuel with
  | O => None
  | S f =>
    if lenN bc <=? off then Some used
    else
      let op := rd bc off in
      let off := off + 1 in
      if keyed op && (lenN bc <? off + 2) then Some used
      else
        let used := if keyed op then mark_id used (rd2 bc off) else used in
        let off := if keyed op then off + 2 else off in
        let used := if (op =? 0x3B) && negb (lenN bc <? off + 2) then mark_id used (rd2 bc off) else used in
        mark f bc (skip_args true op bc off) used
  end.

(** The new table and the map from old to new numbers, cndc.c:135-147 *)
Fixpoint build_map (strs : list (list N)) (used : list bool) (tab : list (list N)) : list (list N) * list N :=
  match strs, used with
  | s :: strs, u :: used =>
    if u then
      let (tab, id) := strtab_add tab (cstr s) in
      let (tab, m) := build_map strs used tab in (tab, id :: m)
    else let (tab, m) := build_map strs used tab in (tab, 0 :: m)
  | _, _ => (tab, [])
  end.

(** *id_ptr = map[old_id] when the old number is in range (cndc.c:169-173 and 186-190) *)
Definition renumber (m : list N) (bc : list N) (off : N) : list N :=
  match nth_error m (N.to_nat (rd2 bc off)) with
  | Some id => firstn (N.to_nat off) bc ++ le2 id ++ skipn (N.to_nat off + 2) bc
  | None => bc
  end.

(** Third step, cndc.c:149-246, in place *)
Fixpoint remap (fuel : nat) (m : list N) (bc : list N) (off : N) : option (list N) :=
  match fuel with
  | O => None
  | S f =>
    if lenN bc <=? off then Some bc
    else
      let op := rd bc off in
      let off := off + 1 in
      if keyed op && (lenN bc <? off + 2) then Some bc
      else
        let bc := if keyed op then renumber m bc off else bc in
        let off := if keyed op then off + 2 else off in
        let bc := if (op =? 0x3B) && negb (lenN bc <? off + 2) then renumber m bc off else bc in
        remap f m bc (skip_args false op bc off)
  end.

(** optimize_strings, cndc.c:17-255.  Each loop round moves forward, so one more round than there
    are bytes is enough fuel. *)
Definition optimize_strings (strs : list (list N)) (bc : list N) : option (list (list N) * list N) :=
  if lenN strs =? 0 then Some (strs, bc)
  else
    match mark (S (length bc)) bc 0 (map (fun _ => false) strs) with
    | None => None
    | Some used =>
      let (tab, m) := build_map strs used [] in
      match remap (S (length bc)) m bc 0 with
      | None => None
      | Some bc => Some (tab, bc)
      end
    end.

(** get_opcode_size_and_keyid_offset, cnd_utils.c:31-171: the size and whether a name follows the
    opcode (keyid_offset is 1 or -1); None for size -1. *)
Definition opcode_size (op : N) : option (N * bool) :=
  match op with
  | 0x00 | 0x01 | 0x02 | 0x04 | 0x38 | 0x26 | 0x25
  | 0x72 | 0x73 | 0x74 | 0x75 | 0x76 | 0x77 | 0x6F | 0x70 | 0x71
  | 0xA0 | 0xA1 | 0xA2 | 0xA3 | 0xA4 | 0xA5 | 0x69 | 0x6A | 0x6B | 0x6C | 0x6D | 0x6E
  | 0x62 | 0x64 | 0x63 | 0x80 | 0x81 | 0x82 | 0x83 | 0x84 | 0x85 | 0x86 | 0x87 | 0x88 | 0x89 | 0x8A | 0x8B
  | 0x90 | 0x91 | 0x92 | 0x93 | 0x94 | 0x95 | 0x96 | 0x97 => Some (1, false)
  | 0x23 | 0x24 | 0x65 => Some (2, false)
  | 0x03 | 0x07 | 0x05 | 0x10 | 0x11 | 0x12 | 0x13 | 0x14 | 0x15 | 0x16 | 0x17 | 0x18 | 0x19 | 0x1A
  | 0x22 | 0x60 | 0x78 | 0x3A => Some (3, true)
  | 0x20 | 0x21 => Some (4, true)
  | 0x30 => Some (5, true)
  | 0x31 | 0x32 | 0x33 | 0x35 | 0x36 | 0x37 => Some (3, true)
  | 0x34 | 0x39 => Some (7, true)
  | 0x3B => Some (5, true)
  | 0x52 | 0x50 => Some (5, false)
  | 0x61 => Some (9, false)
  | 0x51 => Some (7, true)
  | _ => None
  end.

(** The prefixed name, cnd_utils.c:199-216.  When it does not fit its 512-byte buffer the code copies
    the old name alone but still passes the long length to strtab_add, which then reads bytes that
    were never written, or past the buffer: undefined behaviour.  Names are C strings, so [prefix]
    and the table entries are read up to their NUL; int lengths are taken as unbounded. *)
Definition prefixed (strs : list (list N)) (prefix : list N) (key : N) : result (list N) :=
  let old_name := cstr (nth (N.to_nat key) strs []) in
  if lenN prefix + 1 + lenN old_name <? 512 then Ok (prefix ++ [46] ++ old_name) else Ub UData.

(** buf_append_with_prefix, cnd_utils.c:174-231: [src] is what is left to copy, [out] the target
    buffer.  Each round drops at least one byte of [src], its length + 1 is enough fuel. *)
Fixpoint append_with_prefix (fuel : nat) (src prefix : list N) (strs : list (list N)) (out : list N)
  : option (result (list (list N) * list N)) :=
  match fuel, src with
  | _, [] => Some (Ok (strs, out))
  | O, _ => None
  | S f, op :: _ =>
    match opcode_size op with
    | None => Some (Ok (strs, out ++ src))
    | Some (size, key) =>
      if lenN src <? size then Some (Ok (strs, out ++ src))
      else
        let rest := skipn (N.to_nat size) src in
        if negb key then append_with_prefix f rest prefix strs (out ++ firstn (N.to_nat size) src)
        else
          match prefixed strs prefix (rd2 src 1) with
          | Ub u => Some (Ub u)
          | Ok name =>
            let (strs, id) := strtab_add strs name in
            append_with_prefix f rest prefix strs
              (out ++ [op] ++ le2 id ++ skipn 3 (firstn (N.to_nat size) src))
          end
    end
  end.
