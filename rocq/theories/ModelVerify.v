(** src/vm/vm_verify.c: the bytecode verifier. *)
From Verif Require Import Base ModelWord ModelVM.

(** uint32_t arithmetic *)
Definition u32 (x : N) : N := x mod 2 ^ 32.

(** Four bytes of the code combined little endian, e.g. vm_verify.c:174.  (The C expression shifts
    a promoted byte into the sign bit; compilers give it the two's complement meaning used here.) *)
Definition bc_u32 (bc : list N) (p : N) : result N :=
  let! l := slice UIl bc p 4 in Ok (il_comb l 0).
(** vm_verify.c:184 *)
Definition bc_u16 (bc : list N) (p : N) : result N :=
  let! l := slice UIl bc p 2 in Ok (il_comb l 0).
(** vm_verify.c:226-229 *)
Definition bc_u64 (bc : list N) (p : N) : result N :=
  let! l := slice UIl bc p 8 in Ok (il_comb l 0).

(** What one round of the loop does: return, or go on at another position *)
Inductive vstep := VRet (e : err) | VGo (ip : N).

(** vm_verify.c:21-168: instruction length by opcode, except the two switches *)
Definition instr_len (op : N) : option N :=
  match op with
  | 0x00 | 0x01 | 0x02 | 0x03 | 0x04 | 0x05 | 0x07                    (* lines 23-29 *)
  | 0x38 | 0x3A | 0x3B                                                (* lines 30-32 *)
  | 0x62 | 0x63 | 0x64 | 0x65                                         (* lines 33-36 *)
  | 0x72 | 0x73 | 0x74 | 0x75 | 0x76 | 0x77                           (* lines 37-42 *)
  | 0x80 | 0x81 | 0x82 | 0x83 | 0x84                                  (* lines 43-47 *)
  | 0x85 | 0x86 | 0x87 | 0x88 | 0x89 | 0x8A | 0x8B                    (* lines 48-54 *)
  | 0x90 | 0x91                                                       (* lines 55-56 *)
  | 0x92 | 0x93 | 0x94 | 0x95 | 0x96 | 0x97                           (* lines 57-62 *)
  | 0xA0 | 0xA1 | 0xA2 | 0xA3 | 0xA4 | 0xA5                           (* lines 63-68 *)
  | 0x69 | 0x6A | 0x6B | 0x6C | 0x6D | 0x6E                           (* lines 69-74 *)
  | 0x6F | 0x70 | 0x71                                                (* lines 75-77 *)
  | 0x60 | 0x78 | 0x4A | 0x25 | 0x26 => Some 1                        (* lines 78-84 *)
  | 0x23 | 0x24 => Some 2                                             (* lines 87-90 *)
  | 0x06                                                              (* line 93 *)
  | 0x10 | 0x11 | 0x12 | 0x13 | 0x14 | 0x15 | 0x16 | 0x17 | 0x18 | 0x19 | 0x1A
  | 0x20 | 0x21 | 0x22
  | 0x31 | 0x32 | 0x33 | 0x35 | 0x36 | 0x37 => Some 3                 (* lines 94-115 *)
  | 0x34 => Some 7                                                    (* line 118 *)
  | 0x30 => Some 5                                                    (* line 122 *)
  | 0x39 => Some 7                                                    (* line 126 *)
  | 0x40 | 0x41 => Some 12                                            (* lines 130-134 *)
  | 0x42 => Some 20                                                   (* line 136 *)
  | 0x43 => Some 19                                                   (* line 141 *)
  | 0x44 | 0x49 => Some 1                                             (* lines 146-159 *)
  | 0x61 => Some 9                                                    (* line 161 *)
  | 0x50 | 0x52 => Some 5                                             (* line 165 *)
  | _ => None                                                         (* line 260 *)
  end.

(** vm_verify.c:197-198, 204-205, 241-242, 249-250, 272-274: signed target, compared with [len] *)
Definition target_bad (len base off : N) : bool :=
  let z := (Z.of_N base + toS 4 off)%Z in (z <? 0)%Z || (Z.of_N len <=? z)%Z.

(** vm_verify.c:201-206: [i] runs up from 0, [n] entries are left *)
Fixpoint cases_bad (bc : list N) (len base start : N) (i : N) (n : nat) : result bool :=
  match n with
  | O => Ok false
  | S n' =>
    let! off := bc_u32 bc (start + 6 + i * 12 + 8) in
    if target_bad len base off then Ok true else cases_bad bc len base start (i + 1) n'
  end.

(** vm_verify.c:170-209 *)
Definition check_switch (bc : list N) (len ip : N) : result (option err) :=
  if len <? u32 (ip + 7) then Ok (Some EOob)
  else
    let! rel := bc_u32 bc (ip + 3) in
    let base := u32 (ip + 7) in
    let start := u32 (base + rel) in
    if len <? start then Ok (Some EOob)
    else if len <? start + 6 then Ok (Some EOob)
    else
      let! count := bc_u16 bc start in
      if len <? start + u32 (6 + count * 12) then Ok (Some EOob)
      else
        let! dflt := bc_u32 bc (start + 2) in
        if target_bad len base dflt then Ok (Some EOob)
        else
          let! bad := cases_bad bc len base start 0 (N.to_nat count) in
          if bad then Ok (Some EOob) else Ok None.

(** vm_verify.c:246-251 *)
Fixpoint entries_bad (bc : list N) (len base start : N) (i : N) (n : nat) : result bool :=
  match n with
  | O => Ok false
  | S n' =>
    let! off := bc_u32 bc (start + 20 + i * 4) in
    if target_bad len base off then Ok true else entries_bad bc len base start (i + 1) n'
  end.

(** vm_verify.c:211-257; the count is a uint64_t and wraps to 0 for the full range *)
Definition check_table (bc : list N) (len ip : N) : result (option err) :=
  if len <? u32 (ip + 7) then Ok (Some EOob)
  else
    let! rel := bc_u32 bc (ip + 3) in
    let base := u32 (ip + 7) in
    let start := u32 (base + rel) in
    if len <? start then Ok (Some EOob)
    else if len <? start + 20 then Ok (Some EOob)
    else
      let! mn := bc_u64 bc start in
      let! mx := bc_u64 bc (start + 8) in
      if mx <? mn then Ok (Some EValidation)
      else
        let count := (mx - mn + 1) mod 2 ^ 64 in
        if 0xFFFFFFFF <? count then Ok (Some EOob)
        else
          let size := 20 + count * 4 in
          if 0xFFFFFFFF <? size then Ok (Some EOob)
          else if len <? start + size then Ok (Some EOob)
          else
            let! dflt := bc_u32 bc (start + 16) in
            if target_bad len base dflt then Ok (Some EOob)
            else
              let! bad := entries_bad bc len base start 0 (N.to_nat count) in
              if bad then Ok (Some EOob) else Ok None.

(** vm_verify.c:263-279 *)
Definition finish (bc : list N) (len ip op n : N) : result vstep :=
  if len <? u32 (ip + n) then Ok (VRet EOob)
  else if (op =? 0x52) || (op =? 0x50) then
    let! off := bc_u32 bc (ip + 1) in
    if target_bad len (ip + 5) off then Ok (VRet EOob) else Ok (VGo (u32 (ip + n)))
  else Ok (VGo (u32 (ip + n))).

(** One round of the loop, vm_verify.c:14-280 *)
Definition verify_step (bc : list N) (len ip : N) : result vstep :=
  let! op := mem UIl bc ip in
  if op =? 0x51 then
    let! r := check_switch bc len ip in
    match r with Some e => Ok (VRet e) | None => finish bc len ip op 7 end
  else if op =? 0x53 then
    let! r := check_table bc len ip in
    match r with Some e => Ok (VRet e) | None => finish bc len ip op 7 end
  else
    match instr_len op with
    | None => Ok (VRet EInvalidOp)
    | Some n => finish bc len ip op n
    end.

Inductive verdict := Verdict (e : err) | VCrash (u : ubk) | VOutOfFuel.

Fixpoint verify_loop (fuel : nat) (bc : list N) (len ip : N) : verdict :=
  match fuel with
  | O => VOutOfFuel
  | S f =>
    if ip <? len then
      match verify_step bc len ip with
      | Ub u => VCrash u
      | Ok (VRet e) => Verdict e
      | Ok (VGo p) => verify_loop f bc len p
      end
    else Verdict EOk
  end.

(** cnd_verify_program, vm_verify.c:4-283; the null check of lines 6-8 is not modelled (a program has code).
    [len] is the code length converted to uint32_t. *)
Definition verify (fuel : nat) (bc : list N) : verdict := verify_loop fuel bc (u32 (lenN bc)) 0.
