(** src/vm/vm_exec.c lines 118-426 and 511-1676: the interpreter. *)
From Verif Require Import Base ModelWord ModelBits ModelFloat ModelTrans ModelCrc.

(** concordia.h:150-160 *)
Inductive err :=
| EOk | EOob | EInvalidOp | EValidation | ECallback
| EStackOverflow | EStackUnderflow | ECrc | EArith.

(** concordia.h:162-165 *)
Inductive mode := Enc | Dec.

(** concordia.h:211-249, the fields the interpreter reads and writes.
    [ip] is the local [pc] of cnd_execute as an index (vm_exec.c:674).  Stacks are lists, top
    first.  The value of ctx->ip after cnd_execute returned is not modelled. *)
Record st := mkst {
  md : mode; buf : list N; ip : N; cur : N; boff : N; en : endian;
  tr : trans; opt : bool; loops : list (N * N); stk : list N }.

Definition set_buf s x := mkst (md s) x (ip s) (cur s) (boff s) (en s) (tr s) (opt s) (loops s) (stk s).
Definition set_ip s x := mkst (md s) (buf s) x (cur s) (boff s) (en s) (tr s) (opt s) (loops s) (stk s).
Definition set_cur s x := mkst (md s) (buf s) (ip s) x (boff s) (en s) (tr s) (opt s) (loops s) (stk s).
Definition set_boff s x := mkst (md s) (buf s) (ip s) (cur s) x (en s) (tr s) (opt s) (loops s) (stk s).
Definition set_en s x := mkst (md s) (buf s) (ip s) (cur s) (boff s) x (tr s) (opt s) (loops s) (stk s).
Definition set_tr s x := mkst (md s) (buf s) (ip s) (cur s) (boff s) (en s) x (opt s) (loops s) (stk s).
Definition set_opt s x := mkst (md s) (buf s) (ip s) (cur s) (boff s) (en s) (tr s) x (loops s) (stk s).
Definition set_loops s x := mkst (md s) (buf s) (ip s) (cur s) (boff s) (en s) (tr s) (opt s) x (stk s).
Definition set_stk s x := mkst (md s) (buf s) (ip s) (cur s) (boff s) (en s) (tr s) (opt s) (loops s) x.

Definition dlen (s : st) : N := lenN (buf s).

(** cnd_init, vm_exec.c:593-620 *)
Definition init (m : mode) (data : list N) : st :=
  mkst m data 0 0 0 LE TNone false [] [].

(** ** The host callback *)

(** What data_ptr points to. *)
Inductive payload :=
| PNone                        (* NULL *)
| PInt (w : width) (v : N)     (* integer or float variable of that width, holding v *)
| PStr                         (* a [const char*] variable to be filled in (encode) *)
| PBuf (pos : N) (l : list N). (* the bytes l at position pos of the packet buffer *)

(** Not passed to the callback: why the call is made.  Used only to state what a
    reported value means; no modelled code depends on it. *)
Inductive how :=
| HNote                          (* structure notification *)
| HQuery                         (* the interpreter asks the host for a value (both modes) *)
| HStore                         (* the interpreter hands a computed value to the host *)
| HCount                         (* array element count *)
| HField (ty : N) (t : trans)    (* scalar of wire type [ty] under transform [t] *)
| HMissing (ty : N)              (* optional scalar with no bytes left *)
| HBitU (w : N) | HBitI (w : N) | HBitBool
| HConst                         (* constant found on decode *)
| HString (ty : N) (max : N)     (* max: longest storable length *)
| HRaw (n : N).                  (* bulk bytes *)

Record request := { rq_key : N; rq_op : N; rq_pl : payload; rq_how : how }.

(** r_ok: the callback returned CND_ERR_OK.  r_val: integer stored through the pointer,
    [None] if it did not store.  r_str: the string pointer stored, [None] is NULL or not stored.
    r_bytes: bytes written from the start of a [PBuf] region. *)
Record reply := { r_ok : bool; r_val : option N; r_str : option (list N); r_bytes : list N }.

(** ** One instruction as a resumption *)
Inductive act :=
| Cont (s : st)                               (* next loop iteration *)
| Halt (e : err) (s : st)                     (* cnd_execute returns e *)
| Undef (u : ubk)                             (* undefined behaviour *)
| Ask (rq : request) (k : reply -> act).      (* io_callback *)

Definition lift {A} (r : result A) (k : A -> act) : act :=
  match r with Ok a => k a | Ub u => Undef u end.
Notation "'let*' x ':=' e 'in' k" := (lift e (fun x => k))
  (at level 200, x pattern, e at level 200, k at level 200, right associativity).

(** The usual shape: [if (io_callback(...) != CND_ERR_OK) return CND_ERR_CALLBACK;] *)
Definition call (s : st) (key op : N) (p : payload) (h : how) (k : reply -> act) : act :=
  Ask {| rq_key := key; rq_op := op; rq_pl := p; rq_how := h |}
      (fun r => if r_ok r then k r else Halt ECallback s).

(** The value of an integer variable of width [w], initially [v], after the callback *)
Definition got (w : width) (v : N) (r : reply) : N :=
  match r_val r with Some x => trunc (wbytes w) x | None => v end.

(** The C string behind a char pointer: bytes up to the first NUL; NULL counts as empty
    (vm_exec.c:401, 1069) *)
Fixpoint cstr (l : list N) : list N :=
  match l with
  | [] => []
  | b :: r => if b mod 256 =? 0 then [] else b mod 256 :: cstr r
  end.
Definition got_str (r : reply) : list N :=
  match r_str r with Some l => cstr l | None => [] end.

(** The host writes [d] through a pointer to [n] bytes at [p] of the buffer *)
Definition host_write (b : list N) (p n : N) (d : list N) : result (list N) :=
  splice b p (firstn (N.to_nat n) (map (fun x => x mod 256) d)).

(** ** Bytecode access *)

(** Little-endian combination of 1, 2, 4 or 8 bytes, as in FETCH_IL_* (vm_exec.c:680-683) *)
Fixpoint il_comb (l : list N) (sh : N) : N :=
  match l with [] => 0 | b :: r => N.lor (N.shiftl b sh) (il_comb r (sh + 8)) end.

(** FETCH_IL_* (vm_exec.c:680-683) and read_il_* (vm_internal.h:8-45): value and new position;
    0 without advancing when fewer than [w] bytes are left. *)
Definition fetch (w : width) (bc : list N) (p : N) : result (N * N) :=
  let n := wbytes w in
  if p + n <=? lenN bc then
    let! l := slice UIl bc p n in Ok (il_comb l 0, p + n)
  else Ok (0, p).

(** ** Fixed-size stacks (concordia.h:183-184, 244-248; vm_exec.c:317-327, 622-633) *)
Definition max_loop_depth : N := 8.
Definition max_expr_stack : N := 8.

(** Writing array slot [length l] of an array with [cap] slots *)
Definition arr_push {A} (cap : N) (l : list A) (v : A) : result (list A) :=
  if lenN l <? cap then Ok (v :: l) else Ub UStack.

Definition push (s : st) (v : N) : act :=
  if max_expr_stack <=? lenN (stk s) then Halt EStackOverflow s
  else let* l := arr_push max_expr_stack (stk s) v in Cont (set_stk s l).

Definition pop (s : st) (k : N -> st -> act) : act :=
  match stk s with
  | [] => Halt EStackUnderflow s
  | v :: r => k v (set_stk s r)
  end.

(** loop_push (vm_exec.c:317-323) with the caller's [return CND_ERR_OOB] *)
Definition loop_push (s : st) (count : N) : act :=
  if max_loop_depth <=? lenN (loops s) then Halt EOob s
  else let* l := arr_push max_loop_depth (loops s) (ip s, count) in Cont (set_loops s l).

(** vm_exec.c:306-315, scanning the bytecode from ip: [l] is what is left of it *)
Definition opens_loop (op : N) : bool :=
  (op =? 0x34) || (op =? 0x35) || (op =? 0x36) || (op =? 0x37) || (op =? 0x3A) || (op =? 0x3B).
Fixpoint skip_scan (l : list N) (p : N) (depth : N) : N :=
  if depth =? 0 then p else
  match l with
  | [] => p
  | op :: r =>
    let depth := if opens_loop op then depth + 1 else depth in
    let depth := if op =? 0x38 then depth - 1 else depth in
    skip_scan r (p + 1) depth
  end.
Definition skip_loop_body (bc : list N) (p : N) : N := skip_scan (skipn (N.to_nat p) bc) p 1.

(** vm_exec.c:331-355; [kno] is the continuation after [return false] *)
Definition try_bulk (bc : list N) (s : st) (count : N) (kno : st -> act) : act :=
  if count =? 0 then kno s
  else if lenN bc <=? ip s + 3 then kno s
  else
    let* next := mem UIl bc (ip s) in
    let* after := mem UIl bc (ip s + 3) in
    if ((next =? 0x10) || (next =? 0x14)) && (after =? 0x38) then
      let* k0 := mem UIl bc (ip s + 1) in
      let* k1 := mem UIl bc (ip s + 2) in
      let key := N.lor k0 (N.shiftl k1 8) in
      if dlen s <? cur s + count then kno s
      else
        let* l := slice UData (buf s) (cur s) count in
        Ask {| rq_key := key; rq_op := 0x39; rq_pl := PBuf (cur s) l; rq_how := HRaw count |}
          (fun r =>
             let* b := host_write (buf s) (cur s) count (r_bytes r) in
             let s := set_buf s b in
             if r_ok r then Cont (set_ip (set_cur s (cur s + count)) (ip s + 4))
             else kno s)
    else kno s.

(** vm_exec.c:376-384 and its copies at 1133-1141 and 1180-1186 *)
Definition enter_array (bc : list N) (s : st) (count : N) : act :=
  if 0 <? count then try_bulk bc s count (fun s => loop_push s count)
  else Cont (set_ip s (skip_loop_body bc (ip s))).

(** ** Scalars *)

(** Integer field types: width and signedness (vm_exec.c:937-945) *)
Record ity := { i_w : width; i_signed : bool }.
Definition int_type (op : N) : option ity :=
  match op with
  | 0x10 => Some {| i_w := W1; i_signed := false |}
  | 0x11 => Some {| i_w := W2; i_signed := false |}
  | 0x12 => Some {| i_w := W4; i_signed := false |}
  | 0x13 => Some {| i_w := W8; i_signed := false |}
  | 0x14 => Some {| i_w := W1; i_signed := true |}
  | 0x15 => Some {| i_w := W2; i_signed := true |}
  | 0x16 => Some {| i_w := W4; i_signed := true |}
  | 0x17 => Some {| i_w := W8; i_signed := true |}
  | _ => None
  end.

(** The mathematical value of a bit pattern of that type, and the type's range *)
Definition ival (t : ity) (v : N) : Z :=
  if i_signed t then toS (wbytes (i_w t)) v else Z.of_N v.
Definition imin (t : ity) : Z :=
  if i_signed t then (- 2 ^ (8 * Z.of_N (wbytes (i_w t)) - 1))%Z else 0%Z.
Definition imax (t : ity) : Z :=
  if i_signed t then (2 ^ (8 * Z.of_N (wbytes (i_w t)) - 1) - 1)%Z
  else (2 ^ (8 * Z.of_N (wbytes (i_w t))) - 1)%Z.

(** (ctype)d, vm_exec.c:142, 155, 168 *)
Definition f64_to_ity (t : ity) (d : N) : result N :=
  let! z := f_to_int F64 (imin t) (imax t) d in Ok (ofZ (wbytes (i_w t)) z).

(** Engineering value [v] (bit pattern supplied by the host) to the stored pattern
    (vm_exec.c:142, 155, 168, 181, 195) *)
Definition to_wire (ty : ity) (t : trans) (v : N) : result N :=
  match t with
  | TNone => Ok v
  | TScale fac off => f64_to_ity ty (fdiv F64 (fsub F64 v off) fac)
  | TPoly c => f64_to_ity ty (poly_solve c v)
  | TSpline p => f64_to_ity ty (spline_solve p v)
  | _ => let! z := int_to_raw t (toS 8 v) in Ok (ofZ (wbytes (i_w ty)) z)
  end.

(** Stored pattern to the pattern reported (vm_exec.c:146, 159, 172, 185, 198) *)
Definition from_wire (ty : ity) (t : trans) (raw : N) : result N :=
  match t with
  | TNone => Ok raw
  | TScale fac off => Ok (fadd F64 (fmul F64 (f_of_Z F64 (ival ty raw)) fac) off)
  | TPoly c => Ok (poly_eval c (f_of_Z F64 (ival ty raw)))
  | TSpline p => Ok (spline_eval p (f_of_Z F64 (ival ty raw)))
  | _ => let! z := int_to_eng t (toS 8 (ofZ 8 (ival ty raw))) in Ok (ofZ 8 z)
  end.

(** The type under which the host sees the value, and its width *)
Definition eng_op (op : N) (t : trans) : N :=
  match t with
  | TNone => op
  | TScale _ _ | TPoly _ | TSpline _ => 0x19
  | _ => 0x17
  end.
Definition eng_w (w : width) (t : trans) : width := match t with TNone => w | _ => W8 end.

(** Common part of HANDLE_PRIMITIVE (vm_exec.c:124-205) and HANDLE_FLOAT (208-279):
    [tw]/[fw] convert engineering value to stored pattern and back, [eop]/[ew] are the opcode and
    width shown to the host. *)
Definition io_scalar (bc : list N) (s : st) (op : N) (w ew : width) (eop : N)
           (tw fw : N -> result N) : act :=
  let* (key, p) := fetch W2 bc (ip s) in
  let s := set_ip s p in
  if dlen s <? cur s + wbytes w then
    if opt s then
      let s := set_opt s false in
      call s key op (PInt w 0) (HMissing op) (fun _ => Cont s)
    else Halt EOob s
  else
    let fin s := Cont (set_opt (set_cur (set_tr s TNone) (cur s + wbytes w)) false) in
    match md s with
    | Enc =>
      call s key eop (PInt ew 0) (HField op (tr s)) (fun r =>
        let* raw := tw (got ew 0 r) in
        let* b := write_word w (en s) (buf s) (cur s) raw in
        fin (set_buf s b))
    | Dec =>
      let* raw := read_word w (en s) (buf s) (cur s) in
      let* v := fw raw in
      call s key eop (PInt ew v) (HField op (tr s)) (fun _ => fin s)
    end.

Definition io_int (bc : list N) (s : st) (op : N) (ty : ity) : act :=
  io_scalar bc s op (i_w ty) (eng_w (i_w ty) (tr s)) (eng_op op (tr s))
            (to_wire ty (tr s)) (from_wire ty (tr s)).

(** Float types: format and width *)
Definition f_fmt (f64 : bool) : fmt := if f64 then F64 else F32.
Definition f_width (f64 : bool) : width := if f64 then W8 else W4.

(** vm_exec.c:226-227, 239-248, 269-270: POLY and SPLINE take the integer branch and do nothing *)
Definition f_to_wire (f64 : bool) (t : trans) (v : N) : result N :=
  match t with
  | TNone => Ok v
  | TScale fac off => Ok (f_conv F64 (f_fmt f64) (fdiv F64 (fsub F64 v off) fac))
  | _ => let! z := int_to_raw t (toS 8 v) in Ok (f_of_Z (f_fmt f64) z)
  end.
(** vm_exec.c:229-230, 250-259, 272 *)
Definition f_from_wire (f64 : bool) (t : trans) (raw : N) : result N :=
  match t with
  | TNone => Ok raw
  | TScale fac off => Ok (fadd F64 (fmul F64 (f_conv (f_fmt f64) F64 raw) fac) off)
  | _ => let! z := f_to_int (f_fmt f64) (- 2 ^ 63) (2 ^ 63 - 1) raw in
         let! z := int_to_eng t z in Ok (ofZ 8 z)
  end.
(** vm_exec.c:225, 238, 269 *)
Definition f_eng_op (op : N) (t : trans) : N :=
  match t with TNone => op | TScale _ _ => 0x19 | _ => 0x17 end.

Definition io_float (bc : list N) (s : st) (op : N) (f64 : bool) : act :=
  io_scalar bc s op (f_width f64) (eng_w (f_width f64) (tr s)) (f_eng_op op (tr s))
            (f_to_wire f64 (tr s)) (f_from_wire f64 (tr s)).

(** vm_exec.c:947-974; the transform state is neither used nor reset *)
Definition io_bool (bc : list N) (s : st) : act :=
  let* (key, p) := fetch W2 bc (ip s) in
  let s := set_ip s p in
  if dlen s <? cur s + 1 then
    if opt s then
      let s := set_opt s false in
      call s key 0x1A (PInt W1 0) (HMissing 0x1A) (fun _ => Cont s)
    else Halt EOob s
  else
    match md s with
    | Enc =>
      call s key 0x1A (PInt W1 0) (HField 0x1A TNone) (fun r =>
        let v := got W1 0 r in
        if 1 <? v then Halt EValidation s
        else let* b := write_u8 (buf s) (cur s) v in
             Cont (set_opt (set_cur (set_buf s b) (cur s + 1)) false))
    | Dec =>
      let* v := read_u8 (buf s) (cur s) in
      if 1 <? v then Halt EValidation s
      else call s key 0x1A (PInt W1 v) (HField 0x1A TNone) (fun _ =>
             Cont (set_opt (set_cur s (cur s + 1)) false))
    end.

(** ** Bit fields *)
Definition put_bits (s : st) (v n : N) (k : st -> act) : act :=
  let* (b, c, o) := write_bits (en s) (buf s) (cur s) (boff s) v n in
  k (set_boff (set_cur (set_buf s b) c) o).
Definition get_bits (s : st) (n : N) (k : N -> st -> act) : act :=
  let* (v, c, o) := read_bits (en s) (buf s) (cur s) (boff s) n in
  k v (set_boff (set_cur s c) o).

(** vm_exec.c:422-426; the result as a 64-bit pattern *)
Definition sign_extend (val bits : N) : result N :=
  if 64 <=? bits then Ok val
  else if bits =? 0 then Ub UShift
  else let m := N.shiftl 1 (bits - 1) in
       Ok ((N.lxor val m + 2 ^ 64 - m) mod 2 ^ 64).

(** vm_exec.c:980 *)
Definition io_bit_u (bc : list N) (s : st) : act :=
  let* (key, p) := fetch W2 bc (ip s) in
  let* (n, p) := fetch W1 bc p in
  let s := set_ip s p in
  match md s with
  | Enc => call s key 0x20 (PInt W8 0) (HBitU n) (fun r => put_bits s (got W8 0 r) n Cont)
  | Dec => get_bits s n (fun v s => call s key 0x20 (PInt W8 v) (HBitU n) (fun _ => Cont s))
  end.

(** vm_exec.c:1008-1023 *)
Definition io_bit_i (bc : list N) (s : st) : act :=
  let* (key, p) := fetch W2 bc (ip s) in
  let* (n, p) := fetch W1 bc p in
  let s := set_ip s p in
  match md s with
  | Enc => call s key 0x21 (PInt W8 0) (HBitI n) (fun r => put_bits s (got W8 0 r) n Cont)
  | Dec => get_bits s n (fun raw s =>
             let* v := sign_extend raw n in
             call s key 0x21 (PInt W8 v) (HBitI n) (fun _ => Cont s))
  end.

(** vm_exec.c:1024-1039 *)
Definition io_bit_bool (bc : list N) (s : st) : act :=
  let* (key, p) := fetch W2 bc (ip s) in
  let s := set_ip s p in
  match md s with
  | Enc => call s key 0x22 (PInt W1 0) HBitBool (fun r =>
             let v := got W1 0 r in
             if 1 <? v then Halt EValidation s else put_bits s v 1 Cont)
  | Dec => get_bits s 1 (fun raw s =>
             call s key 0x22 (PInt W1 (trunc 1 raw)) HBitBool (fun _ => Cont s))
  end.

(** vm_exec.c:1040-1050: decoding moves the position without looking at the buffer *)
Definition align_pad (bc : list N) (s : st) : act :=
  let* (n, p) := fetch W1 bc (ip s) in
  let s := set_ip s p in
  match md s with
  | Enc => put_bits s 0 n Cont
  | Dec => let total := boff s + n in
           Cont (set_boff (set_cur s (cur s + total / 8)) (total mod 8))
  end.

(** vm_exec.c:994-1007 *)
Definition align_fill (bc : list N) (s : st) : act :=
  let* (fill, p) := fetch W1 bc (ip s) in
  let s := set_ip s p in
  if 0 <? boff s then
    let n := 8 - boff s in
    match md s with
    | Enc => put_bits s (if fill =? 0 then 0 else 2 ^ 64 - 1) n Cont
    | Dec => get_bits s n (fun _ s => Cont s)
    end
  else Cont s.

(** ** Strings *)

(** vm_exec.c:1083-1094: memchr over [n] bytes from [p]; the number of bytes before the NUL,
    or [n] if there is none *)
Fixpoint find_nul (b : list N) (p : N) (n : nat) (acc : N) : result N :=
  match n with
  | O => Ok acc
  | S n' => let! x := mem UData b p in
            if x =? 0 then Ok acc else find_nul b (p + 1) n' (acc + 1)
  end.

(** vm_exec.c:1054-1106 *)
Definition str_null (bc : list N) (s : st) : act :=
  let* (key, p) := fetch W2 bc (ip s) in
  let* (max, p) := fetch W2 bc p in
  let s := set_ip s p in
  match md s with
  | Enc =>
    Ask {| rq_key := key; rq_op := 0x30; rq_pl := PStr; rq_how := HString 0x30 max |} (fun r =>
      if r_ok r then
        let str := got_str r in
        let len := if max <? lenN str then max else lenN str in
        if dlen s <? cur s + len + 1 then Halt EOob s
        else
          let* b := splice (buf s) (cur s) (firstn (N.to_nat len) str) in
          let* b := sto b (cur s + len) 0 in
          Cont (set_opt (set_cur (set_buf s b) (cur s + len + 1)) false)
      else if opt s then Cont (set_opt s false)
      else Halt ECallback s)
  | Dec =>
    let remaining := if cur s <=? dlen s then dlen s - cur s else dlen s + 2 ^ 64 - cur s in
    let search := if remaining <? max then remaining else max in
    let* len := find_nul (buf s) (cur s) (N.to_nat search) 0 in
    let start := cur s in
    let s := set_cur s (start + len) in
    if dlen s <=? cur s then Halt EOob s
    else
      let* l := slice UData (buf s) start len in
      call s key 0x30 (PBuf start l) (HString 0x30 max) (fun r =>
        let* b := host_write (buf s) start len (r_bytes r) in
        Cont (set_opt (set_cur (set_buf s b) (cur s + 1)) false))
  end.

(** HANDLE_STRING_PRE, vm_exec.c:388-420 *)
Definition str_pre (bc : list N) (s : st) (op : N) (w : width) : act :=
  let* (key, p) := fetch W2 bc (ip s) in
  let s := set_ip s p in
  let max := 2 ^ (8 * wbytes w) - 1 in
  match md s with
  | Enc =>
    Ask {| rq_key := key; rq_op := op; rq_pl := PStr; rq_how := HString op max |} (fun r =>
      if r_ok r then
        let str := got_str r in
        let len := if max <? lenN str then max else lenN str in
        if dlen s <? cur s + wbytes w + len then Halt EOob s
        else
          let* b := write_word w (en s) (buf s) (cur s) len in
          let* b := splice b (cur s + wbytes w) (firstn (N.to_nat len) str) in
          Cont (set_opt (set_cur (set_buf s b) (cur s + wbytes w + len)) false)
      else if opt s then Cont (set_opt s false)
      else Halt ECallback s)
  | Dec =>
    if dlen s <? cur s + wbytes w then Halt EOob s
    else
      let* len := read_word w (en s) (buf s) (cur s) in
      if dlen s <? cur s + wbytes w + len then Halt EOob s
      else
        let start := cur s + wbytes w in
        let* l := slice UData (buf s) start len in
        call s key op (PBuf start l) (HString op max) (fun r =>
          let* b := host_write (buf s) start len (r_bytes r) in
          Cont (set_opt (set_cur (set_buf s b) (start + len)) false))
  end.

(** ** Arrays *)

(** HANDLE_ARRAY_PRE, vm_exec.c:359-386 *)
Definition arr_pre (bc : list N) (s : st) (op : N) (w : width) : act :=
  let* (key, p) := fetch W2 bc (ip s) in
  let s := set_ip s p in
  match md s with
  | Enc =>
    call s key op (PInt w 0) HCount (fun r =>
      let count := got w 0 r in
      if dlen s <? cur s + wbytes w then Halt EOob s
      else
        let* b := write_word w (en s) (buf s) (cur s) count in
        enter_array bc (set_cur (set_buf s b) (cur s + wbytes w)) count)
  | Dec =>
    if dlen s <? cur s + wbytes w then Halt EOob s
    else
      let* count := read_word w (en s) (buf s) (cur s) in
      let s := set_cur s (cur s + wbytes w) in
      call s key op (PInt w count) HCount (fun r => enter_array bc s (got w count r))
  end.

(** vm_exec.c:1116-1143 *)
Definition arr_fixed (bc : list N) (s : st) : act :=
  let* (key, p) := fetch W2 bc (ip s) in
  let* (count, p) := fetch W4 bc p in
  let s := set_ip s p in
  call s key 0x34 (PInt W4 count) HCount (fun r => enter_array bc s (got W4 count r)).

Definition eof_mark : N := 0xFFFFFFFF.

(** vm_exec.c:1145-1163: the frame stays pushed when the body is skipped *)
Definition arr_eof (bc : list N) (s : st) : act :=
  let* (_, p) := fetch W2 bc (ip s) in
  let s := set_ip s p in
  if max_loop_depth <=? lenN (loops s) then Halt EStackOverflow s
  else
    let* l := arr_push max_loop_depth (loops s) (ip s, eof_mark) in
    let s := set_loops s l in
    if dlen s <=? cur s then Cont (set_ip s (skip_loop_body bc (ip s)))
    else Cont s.

(** vm_exec.c:1165-1188 *)
Definition arr_dynamic (bc : list N) (s : st) : act :=
  let* (key, p) := fetch W2 bc (ip s) in
  let* (ref, p) := fetch W2 bc p in
  let s := set_ip s p in
  call s ref 0x06 (PInt W8 0) HQuery (fun r =>
    let cv := got W8 0 r in
    if 0xFFFFFFFF <? cv then Halt EArith s
    else call s key 0x3B (PInt W4 cv) HCount (fun r => enter_array bc s (got W4 cv r))).

(** vm_exec.c:1190-1216 *)
Definition arr_end (s : st) : act :=
  match loops s with
  | [] => Halt EInvalidOp s
  | (start, rem) :: rest =>
    let '(s, again) :=
      if rem =? eof_mark then (s, cur s <? dlen s)
      else
        let rem := if 0 <? rem then rem - 1 else rem in
        (set_loops s ((start, rem) :: rest), 0 <? rem) in
    if again then Cont (set_ip s start)
    else call s 0 0x38 PNone HNote (fun _ => Cont (set_loops s rest))
  end.

(** vm_exec.c:1218-1235 *)
Definition raw_bytes (bc : list N) (s : st) : act :=
  let* (key, p) := fetch W2 bc (ip s) in
  let* (count, p) := fetch W4 bc p in
  let s := set_ip s p in
  if dlen s <? cur s + count then Halt EOob s
  else
    let* l := slice UData (buf s) (cur s) count in
    Ask {| rq_key := key; rq_op := 0x39; rq_pl := PBuf (cur s) l; rq_how := HRaw count |} (fun r =>
      let* b := host_write (buf s) (cur s) count (r_bytes r) in
      let s := set_buf s b in
      if r_ok r then Cont (set_cur s (cur s + count)) else Halt ECallback s).

(** ** Validation *)

(** vm_exec.c:732-751: writes in both modes *)
Definition const_write (bc : list N) (s : st) : act :=
  let* (ty, p) := fetch W1 bc (ip s) in
  match int_type ty with
  | Some {| i_w := w; i_signed := false |} =>
    let* (v, p) := fetch w bc p in
    let s := set_ip s p in
    if dlen s <? cur s + wbytes w then Halt EOob s
    else let* b := write_word w (en s) (buf s) (cur s) v in
         Cont (set_cur (set_buf s b) (cur s + wbytes w))
  | _ => Halt EInvalidOp s
  end.

(** vm_exec.c:753-789 *)
Definition const_check (bc : list N) (s : st) : act :=
  let* (key, p) := fetch W2 bc (ip s) in
  let* (ty, p) := fetch W1 bc p in
  match int_type ty with
  | Some {| i_w := w |} =>
    let* (v, p) := fetch w bc p in
    let s := set_ip s p in
    if dlen s <? cur s + wbytes w then Halt EOob s
    else
      let fin s := Cont (set_cur s (cur s + wbytes w)) in
      match md s with
      | Enc => let* b := write_word w (en s) (buf s) (cur s) v in fin (set_buf s b)
      | Dec => let* x := read_word w (en s) (buf s) (cur s) in
               if x =? v then call s key ty (PInt w x) HConst (fun _ => fin s)
               else Halt EValidation s
      end
  | None => Halt EInvalidOp s
  end.

(** The word of width [w] that ends at the cursor *)
Definition read_back (w : width) (s : st) : result N :=
  if cur s <? wbytes w then Ub UData else read_word w (en s) (buf s) (cur s - wbytes w).

(** vm_exec.c:796-809: [left] members are left to fetch; [Some p]: found, continue at [p] *)
Fixpoint enum_scan (w : width) (bc : list N) (p : N) (actual : N) (left : nat) : result (option N) :=
  match left with
  | O => Ok None
  | S l' =>
    let! (v, p) := fetch w bc p in
    if actual =? v then Ok (Some (p + N.of_nat l' * wbytes w))
    else enum_scan w bc p actual l'
  end.

(** vm_exec.c:791-833.  Equality of two values of one C type is equality of bit patterns. *)
Definition enum_check (bc : list N) (s : st) : act :=
  let* (ty, p) := fetch W1 bc (ip s) in
  let* (count, p) := fetch W2 bc p in
  match int_type ty with
  | Some {| i_w := w |} =>
    let* actual := read_back w s in
    let* r := enum_scan w bc p actual (N.to_nat count) in
    match r with
    | Some p => Cont (set_ip s p)
    | None => Halt EValidation s
    end
  | None => Halt EInvalidOp s
  end.

(** vm_exec.c:835-853 with CHECK_RANGE and CHECK_RANGE_FLOAT (281-302) *)
Definition range_check (bc : list N) (s : st) : act :=
  let* (ty, p) := fetch W1 bc (ip s) in
  let go (w : width) (lt : N -> N -> bool) : act :=
    let* (mn, p) := fetch w bc p in
    let* (mx, p) := fetch w bc p in
    let s := set_ip s p in
    if cur s <? wbytes w then Halt EOob s
    else
      let* v := read_word w (en s) (buf s) (cur s - wbytes w) in
      if lt v mn || lt mx v then Halt EValidation s else Cont s in
  match int_type ty with
  | Some t => go (i_w t) (fun a b => Z.ltb (ival t a) (ival t b))
  | None =>
    if ty =? 0x18 then go W4 (flt F32)
    else if ty =? 0x19 then go W8 (flt F64)
    else Halt EInvalidOp s
  end.

(** vm_exec.c:855-893 *)
Definition crc_op (bc : list N) (s : st) (w32 : bool) : act :=
  let w := if w32 then W4 else W2 in
  let* (poly, p) := fetch w bc (ip s) in
  let* (ini, p) := fetch w bc p in
  let* (xo, p) := fetch w bc p in
  let* (flags, p) := fetch W1 bc p in
  let s := set_ip s p in
  let* data := slice UData (buf s) 0 (cur s) in
  let crc := calc_crc data poly ini xo flags w32 in
  if dlen s <? cur s + wbytes w then Halt EOob s
  else
    let fin s := Cont (set_cur s (cur s + wbytes w)) in
    match md s with
    | Enc => let* b := write_word w (en s) (buf s) (cur s) crc in fin (set_buf s b)
    | Dec => let* x := read_word w (en s) (buf s) (cur s) in
             if x =? trunc (wbytes w) crc then fin s else Halt ECrc s
    end.

(** ** Transform set-up (vm_exec.c:895-934) *)
Definition scale_lin (bc : list N) (s : st) : act :=
  let* (f, p) := fetch W8 bc (ip s) in
  let* (o, p) := fetch W8 bc p in
  Cont (set_tr (set_ip s p) (TScale f o)).

Definition trans_int (bc : list N) (s : st) (mk : Z -> trans) : act :=
  let* (v, p) := fetch W8 bc (ip s) in
  Cont (set_tr (set_ip s p) (mk (toS 8 v))).

Fixpoint words (n : nat) (l : list N) : list N :=
  match n with
  | O => []
  | S n' => il_comb (firstn 8 l) 0 :: words n' (skipn 8 l)
  end.
Fixpoint pairs (l : list N) : list (N * N) :=
  match l with x :: y :: r => (x, y) :: pairs r | _ => [] end.

Definition trans_poly (bc : list N) (s : st) : act :=
  let* (n, p) := fetch W1 bc (ip s) in
  if lenN bc <? p + n * 8 then Halt EOob s
  else let* l := slice UIl bc p (n * 8) in
       Cont (set_tr (set_ip s (p + n * 8)) (TPoly (words (N.to_nat n) l))).

Definition trans_spline (bc : list N) (s : st) : act :=
  let* (n, p) := fetch W1 bc (ip s) in
  if lenN bc <? p + n * 16 then Halt EOob s
  else let* l := slice UIl bc p (n * 16) in
       Cont (set_tr (set_ip s (p + n * 16)) (TSpline (pairs (words (N.to_nat (2 * n)) l)))).

(** ** Control flow *)

(** (vm_exec.c:1274-1285 and copies) jump by a signed 32-bit offset from [base] *)
Definition jump_to (bc : list N) (s : st) (base off : N) : act :=
  let z := (Z.of_N base + toS 4 off)%Z in
  if (z <? 0)%Z then Halt EOob s
  else if lenN bc <? Z.to_N z then Halt EOob s
  else Cont (set_ip s (Z.to_N z)).

(** vm_exec.c:1258-1269: the first entry with the discriminator's value *)
Fixpoint switch_scan (bc : list N) (p : N) (n : nat) (disc : N) (found : bool) (target : N)
  : result N :=
  match n with
  | O => Ok target
  | S n' =>
    let! (cv, p) := fetch W8 bc p in
    let! (co, p) := fetch W4 bc p in
    if negb found && (disc =? cv) then switch_scan bc p n' disc true co
    else switch_scan bc p n' disc found target
  end.

(** vm_exec.c:1237-1287 *)
Definition switch_op (bc : list N) (s : st) : act :=
  let* (key, p) := fetch W2 bc (ip s) in
  let* (rel, p) := fetch W4 bc p in
  let s := set_ip s p in
  let table := p + rel in
  if lenN bc <? table then Halt EOob s
  else
    let* (count, t) := fetch W2 bc table in
    let* (dflt, t) := fetch W4 bc t in
    call s key 0x06 (PInt W8 0) HQuery (fun r =>
      let* target := switch_scan bc t (N.to_nat count) (got W8 0 r) false dflt in
      jump_to bc s p target).

(** vm_exec.c:1289-1341 with peek_il_u32 (vm_internal.h:47-51); size_t wraps at 2^64 *)
Definition switch_table (bc : list N) (s : st) : act :=
  let* (key, p) := fetch W2 bc (ip s) in
  let* (rel, p) := fetch W4 bc p in
  let s := set_ip s p in
  let table := p + rel in
  if (lenN bc <? table) || (lenN bc <? table + 20) then Halt EOob s
  else
    let* (mn, t) := fetch W8 bc table in
    let* (mx, t) := fetch W8 bc t in
    let* (dflt, t) := fetch W4 bc t in
    call s key 0x06 (PInt W8 0) HQuery (fun r =>
      let disc := got W8 0 r in
      if (mn <=? disc) && (disc <=? mx) then
        let loc := (t + ((disc - mn) * 4) mod 2 ^ 64) mod 2 ^ 64 in
        if lenN bc <? (loc + 4) mod 2 ^ 64 then Halt EOob s
        else
          let* l := slice UIl bc loc 4 in
          jump_to bc s p (il_comb l 0)
      else jump_to bc s p dflt).

(** vm_exec.c:1343-1364 *)
Definition jump_if_not (bc : list N) (s : st) : act :=
  let* (off, p) := fetch W4 bc (ip s) in
  let s := set_ip s p in
  pop s (fun c s => if c =? 0 then jump_to bc s p off else Cont s).

(** vm_exec.c:1366-1382 *)
Definition jump_op (bc : list N) (s : st) : act :=
  let* (off, p) := fetch W4 bc (ip s) in
  jump_to bc (set_ip s p) p off.

(** ** Expression stack *)

(** vm_exec.c:1386-1402 *)
Definition load_ctx (bc : list N) (s : st) : act :=
  let* (key, p) := fetch W2 bc (ip s) in
  let s := set_ip s p in
  call s key 0x60 (PInt W8 0) HQuery (fun r => push s (got W8 0 r)).
Definition store_ctx (bc : list N) (s : st) : act :=
  let* (key, p) := fetch W2 bc (ip s) in
  let s := set_ip s p in
  pop s (fun v s => call s key 0x78 (PInt W8 v) HStore (fun _ => Cont s)).

(** vm_exec.c:1430-1434 and 1505-1509 *)
Definition emit_width (ty : N) : option width :=
  match ty with
  | 0x10 | 0x14 | 0x1A => Some W1
  | 0x11 | 0x15 => Some W2
  | 0x12 | 0x16 | 0x18 => Some W4
  | 0x13 | 0x17 | 0x19 => Some W8
  | _ => None
  end.
(** Does the decoded pattern [x] match the computed value [v]?  (vm_exec.c:1520-1536) *)
Definition emit_matches (ty v x : N) : bool :=
  if ty =? 0x18 then
    let diff := fsub F32 (f_conv F64 F32 v) x in
    negb (flt F32 diff f_m1e5 || flt F32 f_1e5 diff)
  else if ty =? 0x19 then
    let diff := fsub F64 v x in
    negb (flt F64 diff d_m1e7 || flt F64 d_1e7 diff)
  else x =? v.
(** vm_exec.c:1423-1541 *)
Definition emit (bc : list N) (s : st) : act :=
  let* (ty, p) := fetch W1 bc (ip s) in
  let s := set_ip s p in
  pop s (fun v s =>
    match emit_width ty with
    | None => Halt EInvalidOp s
    | Some w =>
      if dlen s <? cur s + wbytes w then Halt EOob s
      else
        let fin s := Cont (set_cur s (cur s + wbytes w)) in
        match md s with
        | Enc =>
          let raw := if ty =? 0x18 then f_conv F64 F32 v else v in
          let* b := write_word w (en s) (buf s) (cur s) raw in fin (set_buf s b)
        | Dec =>
          let* x := read_word w (en s) (buf s) (cur s) in
          if emit_matches ty v x then fin s else Halt EValidation s
        end
    end).

Inductive aval := AV (v : N) | AE (e : err) | AU (u : ubk).
Definition b2n (b : bool) : N := if b then 1 else 0.

Inductive binop :=
| BAdd | BSub | BMul | BDiv | BMod
| BFAdd | BFSub | BFMul | BFDiv | BPow
| BFEq | BFNeq | BFGt | BFLt | BFGte | BFLte
| BAnd | BOr | BXor | BShl | BShr
| BEq | BNeq | BGt | BLt | BGte | BLte
| BLAnd | BLOr.

(** vm_exec.c:1544-1560, 1570-1582, 1609-1621, 1641-1666; [a] is the deeper operand *)
Definition bin_eval (lm : libm) (o : binop) (a b : N) : aval :=
  match o with
  | BAdd => AV ((a + b) mod 2 ^ 64)
  | BSub => AV ((a + 2 ^ 64 - b) mod 2 ^ 64)
  | BMul => AV ((a * b) mod 2 ^ 64)
  | BDiv => if b =? 0 then AE EArith else AV (a / b)
  | BMod => if b =? 0 then AE EArith else AV (a mod b)
  | BFAdd => AV (fadd F64 a b)
  | BFSub => AV (fsub F64 a b)
  | BFMul => AV (fmul F64 a b)
  | BFDiv => if feq F64 b d_zero then AE EArith else AV (fdiv F64 a b)
  | BPow => if flt F64 a d_zero && negb (f_is_int F64 b) then AE EArith
            else if feq F64 a d_zero && fle F64 b d_zero then AE EArith
            else AV (trunc 8 (lm_pow lm a b))
  | BFEq => AV (b2n (feq F64 a b))
  | BFNeq => AV (b2n (negb (feq F64 a b)))
  | BFGt => AV (b2n (flt F64 b a))
  | BFLt => AV (b2n (flt F64 a b))
  | BFGte => AV (b2n (fle F64 b a))
  | BFLte => AV (b2n (fle F64 a b))
  | BAnd => AV (N.land a b)
  | BOr => AV (N.lor a b)
  | BXor => AV (N.lxor a b)
  | BShl => if 64 <=? b then AU UShift else AV ((N.shiftl a b) mod 2 ^ 64)
  | BShr => if 64 <=? b then AU UShift else AV (N.shiftr a b)
  | BEq => AV (b2n (a =? b))
  | BNeq => AV (b2n (negb (a =? b)))
  | BGt => AV (b2n (b <? a))
  | BLt => AV (b2n (a <? b))
  | BGte => AV (b2n (b <=? a))
  | BLte => AV (b2n (a <=? b))
  | BLAnd => AV (b2n (negb (a =? 0) && negb (b =? 0)))
  | BLOr => AV (b2n (negb (a =? 0) || negb (b =? 0)))
  end.

Inductive unop :=
| UNeg | UFNeg | USin | UCos | UTan | USqrt | ULog | UAbs | UItof | UFtoi | UNot | ULNot.

(** vm_exec.c:1561-1567, 1583-1608, 1625-1638, 1652, 1667 *)
Definition un_eval (lm : libm) (o : unop) (a : N) : aval :=
  match o with
  | UNeg => if a =? 2 ^ 63 then AU UOverflow else AV ((2 ^ 64 - a) mod 2 ^ 64)
  | UFNeg => AV (dneg a)
  | USin => AV (trunc 8 (lm_sin lm a))
  | UCos => AV (trunc 8 (lm_cos lm a))
  | UTan => AV (trunc 8 (lm_tan lm a))
  | USqrt => if flt F64 a d_zero then AE EArith else AV (fsqrt F64 a)
  | ULog => if fle F64 a d_zero then AE EArith else AV (trunc 8 (lm_log lm a))
  | UAbs => AV (dabs a)
  | UItof => AV (f_of_Z F64 (toS 8 a))
  | UFtoi => match f_to_int F64 (- 2 ^ 63) (2 ^ 63 - 1) a with
             | Ok z => AV (ofZ 8 z)
             | Ub u => AU u
             end
  | UNot => AV (2 ^ 64 - 1 - a)
  | ULNot => AV (b2n (a =? 0))
  end.

Definition bin_op (lm : libm) (s : st) (o : binop) : act :=
  pop s (fun b s => pop s (fun a s =>
    match bin_eval lm o a b with
    | AV v => push s v
    | AE e => Halt e s
    | AU u => Undef u
    end)).
Definition un_op (lm : libm) (s : st) (o : unop) : act :=
  pop s (fun a s =>
    match un_eval lm o a with
    | AV v => push s v
    | AE e => Halt e s
    | AU u => Undef u
    end).

(** vm_exec.c:1416-1421 *)
Definition dup_op (s : st) : act :=
  match stk s with
  | [] => Halt EStackUnderflow s
  | v :: _ => push s v
  end.

(** ** Dispatch *)

(** The cases of the switch at vm_exec.c:700-1671, one constructor per family of cases with
    the same code. *)
Inductive opclass :=
| CNop                         (* NOOP, ENTER_BIT_MODE and the default case, which includes
                                  CTX_QUERY, SWAP and every unassigned byte *)
| CEndian (e : endian)
| CEnterStruct | CExitStruct
| CSkip (w : width)            (* META_VERSION, META_NAME *)
| CConstWrite | CConstCheck | CEnumCheck | CRangeCheck | CCrc (w32 : bool)
| CScale | CPoly | CSpline | COptional
| CTAdd | CTSub | CTMul | CTDiv
| CInt (t : ity) | CBool | CFloat (f64 : bool)
| CBitU | CBitI | CBitBool | CAlignPad | CAlignFill | CExitBit
| CStrNull | CStrPre (w : width) | CArrPre (w : width) | CArrFixed | CArrEof | CArrDyn | CArrEnd
| CRaw
| CSwitch | CSwitchTable | CJumpIfNot | CJump
| CLoad | CStore | CPush | CPop | CDup | CEmit
| CBin (o : binop) | CUn (o : unop).

(** concordia.h:15-146 and the case labels of vm_exec.c:700-1671 *)
Definition classify (op : N) : opclass :=
  match op with
  | 0x01 => CEndian LE | 0x02 => CEndian BE
  | 0x03 => CEnterStruct | 0x04 => CExitStruct
  | 0x05 => CSkip W1 | 0x07 => CSkip W2
  | 0x10 => CInt {| i_w := W1; i_signed := false |}
  | 0x11 => CInt {| i_w := W2; i_signed := false |}
  | 0x12 => CInt {| i_w := W4; i_signed := false |}
  | 0x13 => CInt {| i_w := W8; i_signed := false |}
  | 0x14 => CInt {| i_w := W1; i_signed := true |}
  | 0x15 => CInt {| i_w := W2; i_signed := true |}
  | 0x16 => CInt {| i_w := W4; i_signed := true |}
  | 0x17 => CInt {| i_w := W8; i_signed := true |}
  | 0x18 => CFloat false | 0x19 => CFloat true | 0x1A => CBool
  | 0x20 => CBitU | 0x21 => CBitI | 0x22 => CBitBool
  | 0x23 => CAlignPad | 0x24 => CAlignFill | 0x26 => CExitBit
  | 0x30 => CStrNull | 0x31 => CStrPre W1 | 0x32 => CStrPre W2 | 0x33 => CStrPre W4
  | 0x34 => CArrFixed | 0x35 => CArrPre W1 | 0x36 => CArrPre W2 | 0x37 => CArrPre W4
  | 0x38 => CArrEnd | 0x39 => CRaw | 0x3A => CArrEof | 0x3B => CArrDyn
  | 0x40 => CConstCheck | 0x41 => CConstWrite | 0x42 => CRangeCheck | 0x43 => CScale
  | 0x44 => CCrc false | 0x45 => CTAdd | 0x46 => CTSub | 0x47 => CTMul | 0x48 => CTDiv
  | 0x49 => CCrc true | 0x4A => COptional | 0x4B => CEnumCheck | 0x4C => CPoly | 0x4D => CSpline
  | 0x50 => CJumpIfNot | 0x51 => CSwitch | 0x52 => CJump | 0x53 => CSwitchTable
  | 0x60 => CLoad | 0x61 => CPush | 0x62 => CPop | 0x64 => CDup | 0x65 => CEmit
  | 0x69 => CBin BEq | 0x6A => CBin BNeq | 0x6B => CBin BGt | 0x6C => CBin BLt
  | 0x6D => CBin BGte | 0x6E => CBin BLte
  | 0x6F => CBin BLAnd | 0x70 => CBin BLOr | 0x71 => CUn ULNot
  | 0x72 => CBin BAdd | 0x73 => CBin BSub | 0x74 => CBin BMul | 0x75 => CBin BDiv
  | 0x76 => CBin BMod | 0x77 => CUn UNeg | 0x78 => CStore
  | 0x80 => CBin BFAdd | 0x81 => CBin BFSub | 0x82 => CBin BFMul | 0x83 => CBin BFDiv
  | 0x84 => CUn UFNeg | 0x85 => CUn USin | 0x86 => CUn UCos | 0x87 => CUn UTan
  | 0x88 => CUn USqrt | 0x89 => CBin BPow | 0x8A => CUn ULog | 0x8B => CUn UAbs
  | 0x90 => CUn UItof | 0x91 => CUn UFtoi
  | 0x92 => CBin BFEq | 0x93 => CBin BFNeq | 0x94 => CBin BFGt | 0x95 => CBin BFLt
  | 0x96 => CBin BFGte | 0x97 => CBin BFLte
  | 0xA0 => CBin BAnd | 0xA1 => CBin BOr | 0xA2 => CBin BXor | 0xA3 => CUn UNot
  | 0xA4 => CBin BShl | 0xA5 => CBin BShr
  | _ => CNop
  end.

(** ALIGN_TABLE, vm_exec.c:511-536 *)
Definition aligns (op : N) : bool :=
  ((0x10 <=? op) && (op <=? 0x1F)) || ((0x30 <=? op) && (op <=? 0x3F))
  || (op =? 0x40) || (op =? 0x41) || (op =? 0x44) || (op =? 0x49)
  || ((0x4B <=? op) && (op <=? 0x4F)).

(** vm_exec.c:693-698 *)
Definition align (op : N) (s : st) : st :=
  if aligns op && negb (boff s =? 0) then set_boff (set_cur s (cur s + 1)) 0 else s.

Definition exec_op (lm : libm) (bc : list N) (op : N) (s : st) : act :=
  match classify op with
  | CNop => Cont s
  | CEndian e => Cont (set_en s e)
  | CEnterStruct =>                                                  (* vm_exec.c:705-713 *)
    let* (key, p) := fetch W2 bc (ip s) in
    let s := set_ip s p in
    call s key 0x03 PNone HNote (fun _ => Cont s)
  | CExitStruct => call s 0 0x04 PNone HNote (fun _ => Cont s)        (* vm_exec.c:715-720 *)
  | CSkip w => let* (_, p) := fetch w bc (ip s) in Cont (set_ip s p)  (* vm_exec.c:722-730 *)
  | CConstWrite => const_write bc s
  | CConstCheck => const_check bc s
  | CEnumCheck => enum_check bc s
  | CRangeCheck => range_check bc s
  | CCrc w32 => crc_op bc s w32
  | CScale => scale_lin bc s
  | CPoly => trans_poly bc s
  | CSpline => trans_spline bc s
  | COptional => Cont (set_opt s true)                               (* vm_exec.c:927-929 *)
  | CTAdd => trans_int bc s TAdd
  | CTSub => trans_int bc s TSub
  | CTMul => trans_int bc s TMul
  | CTDiv => trans_int bc s TDiv
  | CInt t => io_int bc s op t
  | CBool => io_bool bc s
  | CFloat f => io_float bc s op f
  | CBitU => io_bit_u bc s
  | CBitI => io_bit_i bc s
  | CBitBool => io_bit_bool bc s
  | CAlignPad => align_pad bc s
  | CAlignFill => align_fill bc s
  | CExitBit => if 0 <? boff s then Halt EValidation s else Cont s   (* vm_exec.c:987-992 *)
  | CStrNull => str_null bc s
  | CStrPre w => str_pre bc s op w
  | CArrPre w => arr_pre bc s op w
  | CArrFixed => arr_fixed bc s
  | CArrEof => arr_eof bc s
  | CArrDyn => arr_dynamic bc s
  | CArrEnd => arr_end s
  | CRaw => raw_bytes bc s
  | CSwitch => switch_op bc s
  | CSwitchTable => switch_table bc s
  | CJumpIfNot => jump_if_not bc s
  | CJump => jump_op bc s
  | CLoad => load_ctx bc s
  | CStore => store_ctx bc s
  | CPush => let* (v, p) := fetch W8 bc (ip s) in push (set_ip s p) v (* vm_exec.c:1404-1408 *)
  | CPop => pop s (fun _ s => Cont s)                                (* vm_exec.c:1410-1414 *)
  | CDup => dup_op s
  | CEmit => emit bc s
  | CBin o => bin_op lm s o
  | CUn o => un_op lm s o
  end.

(** One iteration of the loop at vm_exec.c:688; the caller has checked ip < bytecode_len *)
Definition step (lm : libm) (bc : list N) (s : st) : act :=
  let* op := mem UIl bc (ip s) in
  exec_op lm bc op (align op (set_ip s (ip s + 1))).

(** ** Running against a host *)

(** The host: arbitrary state and an arbitrary callback. *)
Definition event : Type := request * reply.

Inductive outcome :=
| Done (e : err) (s : st)      (* cnd_execute returned *)
| Crash (u : ubk)              (* undefined behaviour *)
| OutOfFuel.                   (* the model stopped; says nothing about the program *)

Section Host.
  Context {H : Type} (host : H -> request -> H * reply).

  Inductive stepped := SCont (s : st) | SHalt (e : err) (s : st) | SUndef (u : ubk).

  (** Resolve the callbacks of one instruction *)
  Fixpoint interp (a : act) (h : H) : stepped * H * list event :=
    match a with
    | Cont s => (SCont s, h, [])
    | Halt e s => (SHalt e s, h, [])
    | Undef u => (SUndef u, h, [])
    | Ask rq k =>
      let '(h1, r) := host h rq in
      let '(x, h2, t) := interp (k r) h1 in
      (x, h2, (rq, r) :: t)
    end.

  (** cnd_execute, vm_exec.c:671-1676 *)
  Fixpoint run (lm : libm) (bc : list N) (fuel : nat) (s : st) (h : H) : outcome * H * list event :=
    match fuel with
    | O => (OutOfFuel, h, [])
    | S f =>
      if lenN bc <=? ip s then (Done EOk s, h, [])
      else
        let '(x, h1, t1) := interp (step lm bc s) h in
        match x with
        | SCont s' => let '(o, h2, t2) := run lm bc f s' h1 in (o, h2, t1 ++ t2)
        | SHalt e s' => (Done e s', h1, t1)
        | SUndef u => (Crash u, h1, t1)
        end
    end.
End Host.
