(** The schema compiler, continued: fields, if, switch, enums, structs, packets, imports, whole files
    (src/compiler/cnd_parser.c from line 282, cnd_compile_file in src/compiler/cndc.c).
    Two byte orders of the compiler's own integers do not matter: all emission goes byte by byte. *)
From Coq Require Import Strings.String.
From Verif Require Import Base ModelFloat ModelVM ModelImage ModelText ModelNames ModelParse.

(** The C string functions see the registered name whole: sources contain no NUL. *)
Definition find_struct (l : list (list N * list N)) (s : list N) : option (list N) :=
  option_map snd (find (fun d => same_text (fst d) s) l).                      (* reg_find, cnd_utils.c:369-376 *)
Definition find_enum (l : list enumdef) (s : list N) : option enumdef :=
  find (fun d => same_text (en_name d) s) l.                                   (* enum_reg_find, cnd_utils.c:418-425 *)

(** The spellings of the basic types, as parse_field tests them (cnd_parser.c:1071-1082, 1191-1226, 1243-1254).
    [byte] is accepted by fields and not by enums. *)
Definition int_name (t : token) : option N :=
  if match_any t ["uint8"; "byte"; "u8"]%string then Some 0x10
  else if match_any t ["uint16"; "u16"]%string then Some 0x11
  else if match_any t ["uint32"; "u32"]%string then Some 0x12
  else if match_any t ["uint64"; "u64"]%string then Some 0x13
  else if match_any t ["int8"; "i8"]%string then Some 0x14
  else if match_any t ["int16"; "i16"]%string then Some 0x15
  else if match_any t ["int32"; "i32"]%string then Some 0x16
  else if match_any t ["int64"; "i64"]%string then Some 0x17
  else None.
Definition type_name (t : token) : option N :=
  match int_name t with
  | Some op => Some op
  | None =>
    if match_any t ["float"; "f32"]%string then Some 0x18
    else if match_any t ["double"; "f64"]%string then Some 0x19
    else if match_any t ["bool"]%string then Some 0x1A
    else None
  end.

(** An integer constant in the width of type [op]; nothing for another type *)
Definition le_of (op : N) (v : N) : list N :=
  match op with
  | 0x10 | 0x14 => [v mod 256]
  | 0x11 | 0x15 => le2 v
  | 0x12 | 0x16 => le4 v
  | 0x13 | 0x17 => le8 v
  | _ => []
  end.

(** emit_range_check, cnd_parser.c:283-346 *)
Definition emit_range_check (E : env) (op : N) (mn mx : token) : par unit :=
  let u t := ret (parse_number_u32 (ttext t)) in
  let i t := number_i64 (ttext t) in
  let d t := ret (parse_number_double E (ttext t)) in
  let check {A} (rd : token -> par A) (bad : A -> A -> bool) (enc : A -> list N) : par unit :=
    let% lo := rd mn in let% hi := rd mx in
    if bad lo hi then error else emit ([0x42; op] ++ enc lo ++ enc hi) in
  match op with
  | 0x10 | 0x11 | 0x12 => check u (fun lo hi => hi <? lo) (le_of op)
  | 0x14 | 0x15 | 0x16 | 0x17 => check i (fun lo hi => (hi <? lo)%Z) (fun z => le_of op (ofZ 8 z))
  | 0x13 => check i (fun lo hi => ofZ 8 hi <? ofZ 8 lo) (fun z => le8 (ofZ 8 z))
  | 0x18 => check d (fun lo hi => flt F64 hi lo) (fun x => le4 (f_conv F64 F32 x))
  | 0x19 => check d (fun lo hi => flt F64 hi lo) le8
  | _ => emit [0x42; op]
  end.

(** The transform asked for: trans_type and its values (cnd_parser.c:763-773) *)
Inductive tkind := KNone | KScale | KMul | KDiv | KAdd | KSub | KPoly | KSpline.

(** Local variables of parse_field set by decorators (cnd_parser.c:751-791) *)
Record deco := mkd {
  d_fixed : option N; d_const : option N; d_be : bool; d_alone : bool; d_range : option (token * token);
  d_kind : tkind; d_scale : N; d_offset : N; d_int : Z; d_poly : list N; d_spline : list (N * N);
  d_crc : option N; d_crc_poly : N; d_crc_init : N; d_crc_xor : N; d_refin : bool; d_refout : bool;
  d_expr : bool; d_eof : bool; d_count : option N }.
Definition deco0 : deco :=
  mkd None None false false None KNone 0x3FF0000000000000 0 0 [] [] None 0 0 0 false false false false None.

Definition with_fixed n d := mkd (Some n) (d_const d) (d_be d) (d_alone d) (d_range d) (d_kind d) (d_scale d) (d_offset d) (d_int d) (d_poly d) (d_spline d)
  (d_crc d) (d_crc_poly d) (d_crc_init d) (d_crc_xor d) (d_refin d) (d_refout d) (d_expr d) (d_eof d) (d_count d).
Definition with_const n d := mkd (d_fixed d) (Some n) (d_be d) (d_alone d) (d_range d) (d_kind d) (d_scale d) (d_offset d) (d_int d) (d_poly d) (d_spline d)
  (d_crc d) (d_crc_poly d) (d_crc_init d) (d_crc_xor d) (d_refin d) (d_refout d) (d_expr d) (d_eof d) (d_count d).
Definition with_be b d := mkd (d_fixed d) (d_const d) b (d_alone d) (d_range d) (d_kind d) (d_scale d) (d_offset d) (d_int d) (d_poly d) (d_spline d)
  (d_crc d) (d_crc_poly d) (d_crc_init d) (d_crc_xor d) (d_refin d) (d_refout d) (d_expr d) (d_eof d) (d_count d).
Definition with_alone d := mkd (d_fixed d) (d_const d) (d_be d) true (d_range d) (d_kind d) (d_scale d) (d_offset d) (d_int d) (d_poly d) (d_spline d)
  (d_crc d) (d_crc_poly d) (d_crc_init d) (d_crc_xor d) (d_refin d) (d_refout d) (d_expr d) (d_eof d) (d_count d).
Definition with_range lo hi d := mkd (d_fixed d) (d_const d) (d_be d) (d_alone d) (Some (lo, hi)) (d_kind d) (d_scale d) (d_offset d) (d_int d) (d_poly d) (d_spline d)
  (d_crc d) (d_crc_poly d) (d_crc_init d) (d_crc_xor d) (d_refin d) (d_refout d) (d_expr d) (d_eof d) (d_count d).
Definition with_linear scale offset d := mkd (d_fixed d) (d_const d) (d_be d) (d_alone d) (d_range d) KScale scale offset (d_int d) (d_poly d) (d_spline d)
  (d_crc d) (d_crc_poly d) (d_crc_init d) (d_crc_xor d) (d_refin d) (d_refout d) (d_expr d) (d_eof d) (d_count d).
Definition with_int k z d := mkd (d_fixed d) (d_const d) (d_be d) (d_alone d) (d_range d) k (d_scale d) (d_offset d) z (d_poly d) (d_spline d)
  (d_crc d) (d_crc_poly d) (d_crc_init d) (d_crc_xor d) (d_refin d) (d_refout d) (d_expr d) (d_eof d) (d_count d).
Definition with_points k poly spline d := mkd (d_fixed d) (d_const d) (d_be d) (d_alone d) (d_range d) k (d_scale d) (d_offset d) (d_int d) poly spline
  (d_crc d) (d_crc_poly d) (d_crc_init d) (d_crc_xor d) (d_refin d) (d_refout d) (d_expr d) (d_eof d) (d_count d).
Definition with_crc crc poly init xor refin refout d := mkd (d_fixed d) (d_const d) (d_be d) (d_alone d) (d_range d) (d_kind d) (d_scale d) (d_offset d) (d_int d) (d_poly d) (d_spline d)
  crc poly init xor refin refout (d_expr d) (d_eof d) (d_count d).
Definition with_expr d := mkd (d_fixed d) (d_const d) (d_be d) (d_alone d) (d_range d) (d_kind d) (d_scale d) (d_offset d) (d_int d) (d_poly d) (d_spline d)
  (d_crc d) (d_crc_poly d) (d_crc_init d) (d_crc_xor d) (d_refin d) (d_refout d) true (d_eof d) (d_count d).
Definition with_eof d := mkd (d_fixed d) (d_const d) (d_be d) (d_alone d) (d_range d) (d_kind d) (d_scale d) (d_offset d) (d_int d) (d_poly d) (d_spline d)
  (d_crc d) (d_crc_poly d) (d_crc_init d) (d_crc_xor d) (d_refin d) (d_refout d) (d_expr d) true (d_count d).
Definition with_count id d := mkd (d_fixed d) (d_const d) (d_be d) (d_alone d) (d_range d) (d_kind d) (d_scale d) (d_offset d) (d_int d) (d_poly d) (d_spline d)
  (d_crc d) (d_crc_poly d) (d_crc_init d) (d_crc_xor d) (d_refin d) (d_refout d) (d_expr d) (d_eof d) (Some id).

(** Token num = p->current; consume(p, TOK_NUMBER, ...); [num] *)
Definition take_number : par token := let% t := get p_cur in consume TNumber ;; ret t.
Definition take_u32 : par N := let% t := take_number in ret (parse_number_u32 (ttext t)).
Definition take_i64 : par Z := let% t := take_number in number_i64 (ttext t).
Definition take_double (E : env) : par N := let% t := take_number in ret (parse_number_double E (ttext t)).

(** The loops of @poly (cnd_parser.c:879-897) and @spline (898-922) *)
Fixpoint poly_loop (E : env) (fuel : nat) (cs : list N) : par (list N) :=
  match fuel with
  | O => no_fuel
  | S f =>
    let% t := get p_cur in
    let% cs :=
      if is_kind TNumber t then
        advance ;;
        (if lenN cs <? 16 then ret (cs ++ [parse_number_double E (ttext t)]) else error ;; ret cs)
      else consume TNumber ;; ret cs in
    let% b := at_kind TComma in
    if b then advance ;; poly_loop E f cs else ret cs
  end.
Fixpoint spline_loop (E : env) (fuel : nat) (ps : list (N * N)) : par (list (N * N)) :=
  match fuel with
  | O => no_fuel
  | S f =>
    let% t := get p_cur in
    let% ps :=
      if is_kind TNumber t then
        advance ;;
        (if lenN ps <? 16 then
           consume TComma ;;
           let% y := take_double E in
           ret (ps ++ [(parse_number_double E (ttext t), y)])
         else error ;; ret ps)
      else consume TNumber ;; ret ps in
    let% b := at_kind TComma in
    if b then advance ;; spline_loop E f ps else ret ps
  end.

(** while (current is neither ")" nor the end) advance *)
Fixpoint skip_to_paren (fuel : nat) : par unit :=
  match fuel with
  | O => no_fuel
  | S f =>
    let% t := get p_cur in
    if is_kind TRparen t || is_kind TEof t then ret tt else advance ;; skip_to_paren f
  end.

(** current_bit_count += pad_bits: unsigned, then converted back to int *)
Definition add_pad (n : N) : par unit := upd_p (fun p =>
  if p_bitmode p && p_bits_valid p
  then set_bits (p_unaligned p) (p_bitmode p) (toS 4 (ofZ 4 (p_bits p + Z.of_N n))) (p_bits_valid p) p else p).
(** current_bit_count += bit_width: int addition *)
Definition add_bits (n : N) : par unit := fun p =>
  if p_bitmode p && p_bits_valid p then
    let z := (p_bits p + Z.of_N n)%Z in
    if (2 ^ 31 - 1 <? z)%Z then PUb UOverflow
    else POk tt (set_bits (p_unaligned p) (p_bitmode p) z (p_bits_valid p) p)
  else POk tt p.
Definition zero_bits : par unit := upd_p (fun p =>
  if p_bitmode p && p_bits_valid p then set_bits (p_unaligned p) (p_bitmode p) 0 (p_bits_valid p) p else p).

(** The decorators with arguments, after "(" (cnd_parser.c:822-929) *)
Definition deco_args (E : env) (f : nat) (t : token) (d : deco) : par deco :=
  let named (kw : String.string) := match_keyword t kw in
  if named "count"%string || named "len"%string then
    let% c := get p_cur in
    match tk c with
    | TIdentifier => advance ;; let% id := add_name (ttext c) in ret (with_count id d)
    | TNumber => advance ;; ret (with_fixed (parse_number_u32 (ttext c)) d)
    | _ => error ;; ret d
    end
  else if named "const"%string || named "match"%string then let% z := take_i64 in ret (with_const (ofZ 8 z) d)
  else if named "pad"%string then
    let% n := take_u32 in
    emit [0x23; n mod 256] ;; add_pad n ;; ret (with_alone d)
  else if named "range"%string then
    let% lo := take_number in consume TComma ;; let% hi := take_number in ret (with_range lo hi d)
  else if named "crc"%string then
    let% w := take_u32 in
    ret (match w with
         | 16 => with_crc (Some w) 0x1021 0xFFFF 0 false false d
         | 32 => with_crc (Some w) 0x04C11DB7 0xFFFFFFFF 0xFFFFFFFF true true d
         | _ => with_crc (Some w) (d_crc_poly d) (d_crc_init d) (d_crc_xor d) (d_refin d) (d_refout d) d
         end)
  else if named "crc_poly"%string then
    let% v := take_u32 in ret (with_crc (d_crc d) v (d_crc_init d) (d_crc_xor d) (d_refin d) (d_refout d) d)
  else if named "crc_init"%string then
    let% v := take_u32 in ret (with_crc (d_crc d) (d_crc_poly d) v (d_crc_xor d) (d_refin d) (d_refout d) d)
  else if named "crc_xor"%string then
    let% v := take_u32 in ret (with_crc (d_crc d) (d_crc_poly d) (d_crc_init d) v (d_refin d) (d_refout d) d)
  else if named "scale"%string then let% x := take_double E in ret (with_linear x (d_offset d) d)
  else if named "offset"%string then
    let% x := take_double E in
    ret (with_linear (match d_kind d with KScale => d_scale d | _ => 0x3FF0000000000000 end) x d)
  else if named "mul"%string then let% z := take_i64 in ret (with_int KMul z d)
  else if named "div"%string then let% z := take_i64 in ret (with_int KDiv z d)
  else if named "add"%string then let% z := take_i64 in ret (with_int KAdd z d)
  else if named "sub"%string then let% z := take_i64 in ret (with_int KSub z d)
  else if named "poly"%string then let% cs := poly_loop E f (d_poly d) in ret (with_points KPoly cs (d_spline d) d)
  else if named "spline"%string then let% ps := spline_loop E f (d_spline d) in ret (with_points KSpline (d_poly d) ps d)
  else if named "expr"%string then parse_expression E f ;; ret (with_expr d)
  else error ;; skip_to_paren f ;; ret d.

(** One decorator, after "@" (cnd_parser.c:792-931) *)
Definition decorator (E : env) (f : nat) (d : deco) : par deco :=
  let% t := get p_cur in
  consume TIdentifier ;;
  (let named (kw : String.string) := match_keyword t kw in
   if named "big_endian"%string || named "be"%string then ret (with_be true d)
   else if named "little_endian"%string || named "le"%string then ret (with_be false d)
   else if named "fill"%string then
     let% paren := at_kind TLparen in
     let% v :=
       if paren then
         advance ;;
         let% n := take_u32 in
         when (1 <? n mod 256) error ;;
         consume TRparen ;; ret (n mod 256)
       else ret 0 in
     emit [0x24; v] ;; zero_bits ;; ret (with_alone d)
   else if named "crc_refin"%string then ret (with_crc (d_crc d) (d_crc_poly d) (d_crc_init d) (d_crc_xor d) true (d_refout d) d)
   else if named "crc_refout"%string then ret (with_crc (d_crc d) (d_crc_poly d) (d_crc_init d) (d_crc_xor d) (d_refin d) true d)
   else if named "optional"%string then emit [0x4A] ;; ret d
   else if named "eof"%string then ret (with_eof d)
   else
     consume TLparen ;;
     let% d := deco_args E f t d in
     consume TRparen ;; ret d).
Fixpoint decorators (E : env) (fuel : nat) (d : deco) : par deco :=
  match fuel with
  | O => no_fuel
  | S f =>
    let% b := at_kind TAt in
    if b then advance ;; let% d := decorator E f d in decorators E f d else ret d
  end.

(** Emit Transform Op (cnd_parser.c:944-972) *)
Definition trans_code (d : deco) : list N :=
  match d_kind d with
  | KNone => []
  | KScale => [0x43] ++ le8 (d_scale d) ++ le8 (d_offset d)
  | KMul => [0x47] ++ le8 (ofZ 8 (d_int d))
  | KDiv => [0x48] ++ le8 (ofZ 8 (d_int d))
  | KAdd => [0x45] ++ le8 (ofZ 8 (d_int d))
  | KSub => [0x46] ++ le8 (ofZ 8 (d_int d))
  | KPoly => [0x4C; lenN (d_poly d)] ++ flat_map le8 (d_poly d)
  | KSpline => [0x4D; lenN (d_spline d)] ++ flat_map (fun p => le8 (fst p) ++ le8 (snd p)) (d_spline d)
  end.
Definition has_trans (d : deco) : bool := match d_kind d with KNone => false | _ => true end.
Definition some {A} (o : option A) : bool := match o with Some _ => true | None => false end.

(** What follows the name: array brackets, prefix/until/max (cnd_parser.c:1010-1060).
    The first value: None, or whether the brackets are empty. *)
Record shape := { s_array : option bool; s_arr_op : N; s_str_op : N; s_max : N; s_until : bool }.
Definition prefix_ops (t : token) (u8 u16 u32 : N) : option N :=
  if match_any t ["uint8"; "u8"]%string then Some u8
  else if match_any t ["uint16"; "u16"]%string then Some u16
  else if match_any t ["uint32"; "u32"]%string then Some u32
  else None.
Definition field_shape (ty : token) (d : deco) : par (deco * shape) :=
  let% br := at_kind TLbracket in
  let% r :=
    if br then
      advance ;;
      let% e := at_kind TRbracket in
      if e then advance ;; ret (d, Some true)
      else let% n := take_u32 in consume TRbracket ;; ret (with_fixed n d, Some false)
    else ret (d, None) in
  let d := fst r in
  let arr := snd r in
  let variable := match arr with Some true => true | _ => false end in
  let is_str := match_keyword ty "string" in
  let% c := get p_cur in
  if match_keyword c "prefix" then
    advance ;;
    let% pt := get p_cur in
    consume TIdentifier ;;
    (if variable && negb (some (d_fixed d)) && negb (some (d_count d)) then
       match prefix_ops pt 0x35 0x36 0x37 with
       | Some op => ret (d, {| s_array := arr; s_arr_op := op; s_str_op := 0; s_max := 255; s_until := false |})
       | None => error ;; ret (d, {| s_array := arr; s_arr_op := 0; s_str_op := 0; s_max := 255; s_until := false |})
       end
     else if is_str then
       match prefix_ops pt 0x31 0x32 0x33 with
       | Some op => ret (d, {| s_array := arr; s_arr_op := 0; s_str_op := op; s_max := 255; s_until := false |})
       | None => error ;; ret (d, {| s_array := arr; s_arr_op := 0; s_str_op := 0; s_max := 255; s_until := false |})
       end
     else error ;; ret (d, {| s_array := arr; s_arr_op := 0; s_str_op := 0; s_max := 255; s_until := false |}))
  else if is_str then
    let% u := if match_keyword c "until" then advance ;; consume TNumber ;; ret true else ret false in
    let% c := get p_cur in
    let% m := if match_keyword c "max" then advance ;; let% n := take_u32 in ret (n mod 65536) else ret 255 in
    ret (d, {| s_array := arr; s_arr_op := 0; s_str_op := 0; s_max := m; s_until := u |})
  else ret (d, {| s_array := arr; s_arr_op := 0; s_str_op := 0; s_max := 255; s_until := false |}).

(** Opening an array or string (cnd_parser.c:1070-1086) *)
Definition open_code (d : deco) (s : shape) (key : N) : list N :=
  (if negb (s_arr_op s =? 0) then [s_arr_op s] ++ le2 key
   else if d_eof d && some (s_array s) then [0x3A] ++ le2 key
   else match d_count d, some (s_array s) with
   | Some id, true => [0x3B] ++ le2 key ++ le2 id
   | _, _ =>
     match d_fixed d, some (s_array s) with
     | Some n, true => [0x34] ++ le2 key ++ le4 n
     | _, _ => []
     end
   end)
  ++ (if negb (s_str_op s =? 0) then [s_str_op s] ++ le2 key else []).

(** A constant field (cnd_parser.c:1088-1148) *)
Definition const_fits (op : N) (v : N) : bool :=
  match op with
  | 0x10 => v <=? 255 | 0x11 => v <=? 65535 | 0x12 => v <=? 4294967295
  | 0x14 => let z := toS 8 v in (-128 <=? z)%Z && (z <=? 127)%Z
  | 0x15 => let z := toS 8 v in (-32768 <=? z)%Z && (z <=? 32767)%Z
  | 0x16 => let z := toS 8 v in (-2147483648 <=? z)%Z && (z <=? 2147483647)%Z
  | _ => true
  end.
Definition const_field (E : env) (ty : token) (d : deco) (key v : N) : par unit :=
  let% op := match int_name ty with Some op => ret op | None => error ;; ret 0x11 end in
  when (negb (const_fits op v) && some (int_name ty)) error ;;
  emit ([0x40] ++ le2 key ++ [op] ++ le_of op v) ;;
  match d_range d with Some (lo, hi) => emit_range_check E op lo hi | None => ret tt end.

(** A field of a structure type (cnd_parser.c:1153-1183); false: return from parse_field.
    append_with_prefix is given enough fuel. *)
Definition struct_field (ty name : token) (d : deco) (width key : N) (code : list N) : par bool :=
  let% sn := get p_sname in
  if match sn with Some n => same_text (ttext ty) n | None => false end then error ;; ret false
  else
    when (has_trans d) error ;;
    when (some (d_range d)) error ;;
    when (some (d_crc d)) error ;;
    when (0 <? width) error ;;
    emit ([0x03] ++ le2 key) ;;
    (fun p =>
       match append_with_prefix (S (length code)) code (firstn 255 (ttext name)) (p_strs p) (p_out p) with
       | None => PFuel
       | Some (Ub u) => PUb u
       | Some (Ok (strs, out)) => POk tt (set_out out (set_strs strs p))
       end) ;;
    emit [0x04] ;; ret true.

(** A field of an enum type (cnd_parser.c:1183-1202) *)
Definition enum_field (E : env) (d : deco) (width key : N) (e : enumdef) : par unit :=
  when (has_trans d) error ;;
  when (some (d_crc d)) error ;;
  when (0 <? width) error ;;
  emit ([en_type e] ++ le2 key ++ [0x4B; en_type e] ++ le2 (lenN (en_vals e))
        ++ flat_map (fun v => le_of (en_type e) (ofZ 8 (snd v))) (en_vals e)) ;;
  match d_range d with Some (lo, hi) => emit_range_check E (en_type e) lo hi | None => ret tt end.

(** A string (cnd_parser.c:1203-1214) *)
Definition string_field (d : deco) (width key : N) (s : shape) : par unit :=
  when (has_trans d) error ;;
  when (some (d_range d)) error ;;
  when (some (d_crc d)) error ;;
  when (0 <? width) error ;;
  when (s_str_op s =? 0)
    (when (some (s_array s) && negb (s_until s)) error ;;
     emit ([0x30] ++ le2 key ++ le2 (s_max s))).

(** A basic type (cnd_parser.c:1215-1284); false: return from parse_field *)
Definition bit_width_of (op : N) : N :=
  match op with
  | 0x10 | 0x14 => 8 | 0x11 | 0x15 => 16 | 0x12 | 0x16 => 32 | 0x13 | 0x17 => 64 | 0x1A => 1 | _ => 0
  end.
Definition basic_field (E : env) (ty : token) (d : deco) (width key : N) : par bool :=
  let% bm := get p_bitmode in
  let ot := type_name ty in
  let width := if bm && (width =? 0) then match ot with Some op => bit_width_of op | None => 0 end else width in
  if 0 <? width then
    match match ot with
          | Some (0x10 | 0x11 | 0x12 | 0x13) => Some 0x20
          | Some (0x14 | 0x15 | 0x16 | 0x17) => Some 0x21
          | Some 0x1A => Some 0x22
          | _ => None
          end with
    | None => error ;; ret false
    | Some op => emit ([op] ++ le2 key ++ [width]) ;; add_bits width ;; ret true
    end
  else if bm then error ;; ret false
  else
    match ot with
    | None => error ;; ret false
    | Some op =>
      (match d_crc d with
       | Some w =>
         let flags := (if d_refin d then 1 else 0) + (if d_refout d then 2 else 0) in
         match w with
         | 16 => when (negb (op =? 0x11)) error ;;
                 emit ([0x44] ++ le2 (d_crc_poly d) ++ le2 (d_crc_init d) ++ le2 (d_crc_xor d) ++ [flags])
         | 32 => when (negb (op =? 0x12)) error ;;
                 emit ([0x49] ++ le4 (d_crc_poly d) ++ le4 (d_crc_init d) ++ le4 (d_crc_xor d) ++ [flags])
         | _ => ret tt
         end
       | None =>
         if d_expr d then emit ([0x64; 0x78] ++ le2 key ++ [0x65; op])
         else
           emit ([op] ++ le2 key) ;;
           match d_range d with Some (lo, hi) => emit_range_check E op lo hi | None => ret tt end
       end) ;; ret true
    end.

(** parse_field after the decorators (cnd_parser.c:933-1294) *)
Definition field_rest (E : env) (d : deco) : par unit :=
  let% semi := at_kind TSemicolon in
  let% close := at_kind TRbrace in
  if d_alone d && (semi || close) then when semi advance
  else
    emit (trans_code d) ;;
    let% ty := get p_cur in
    consume TIdentifier ;;
    let% name := get p_cur in
    if is_kind TSelf name then error
    else
      consume TIdentifier ;;
      (fun p =>
         let (fs, _) := strtab_add (p_fields p) (ttext name) in
         let p' := set_struct (p_sname p) fs p in
         POk tt (if lenN fs =? lenN (p_fields p) then set_err p' else p')) ;;
      let% key := add_name (ttext name) in
      let% colon := at_kind TColon in
      let% width :=
        if colon then advance ;; consume TNumber ;; let% t := get p_prev in ret (parse_number_u32 (ttext t) mod 256)
        else ret 0 in
      let% r := field_shape ty d in
      let d := fst r in
      let s := snd r in
      when (some (s_array s) && match_keyword ty "string" && (s_str_op s =? 0) && negb (s_until s)
            && negb (some (d_fixed d)) && negb (some (d_count d))) error ;;
      when (d_be d) (emit [0x02]) ;;
      emit (open_code d s key) ;;
      let% go :=
        match d_const d with
        | Some v => const_field E ty d key v ;; ret true
        | None =>
          let% sd := get (fun p => find_struct (p_structs p) (ttext ty)) in
          let% ed := get (fun p => find_enum (p_enums p) (ttext ty)) in
          match sd, ed with
          | Some code, _ => struct_field ty name d width key code
          | None, Some e => enum_field E d width key e ;; ret true
          | None, None =>
            if match_keyword ty "string" then string_field d width key s ;; ret true
            else basic_field E ty d width key
          end
        end in
      when go
        (when (some (s_array s)) (emit [0x38]) ;;
         consume TSemicolon ;;
         when (d_be d) (emit [0x01])).

(** Doc comments before a field (cnd_parser.c:734-737) *)
Fixpoint skip_docs (fuel : nat) : par unit :=
  match fuel with
  | O => no_fuel
  | S f => let% b := at_kind TDoc in if b then advance ;; skip_docs f else ret tt
  end.

(** ** switch, cnd_parser.c:512-728 *)

(** Offsets are int32_t; the same 32 bits here.  No default: -1. *)
Definition no_default : N := 0xFFFFFFFF.

(** The value after "case" (cnd_parser.c:549-587) *)
Definition case_value : par N :=
  let% c := get p_cur in
  match tk c with
  | TNumber => let% z := number_i64 (ttext c) in advance ;; ret (ofZ 8 z)
  | TIdentifier =>
    advance ;;
    let% dot := at_kind TDot in
    if dot then
      advance ;;
      let% vn := get p_cur in
      consume TIdentifier ;;
      let% ed := get (fun p => find_enum (p_enums p) (ttext c)) in
      match ed with
      | None => error ;; ret 0
      | Some e =>
        match find (fun v => same_text (fst v) (ttext vn)) (en_vals e) with
        | Some v => ret (ofZ 8 (snd v))
        | None => error ;; ret 0
        end
      end
    else error ;; ret 0
  | _ => ret 0
  end.

(** The tables (cnd_parser.c:639-714); [code_start]: where offsets count from *)
Definition dense (cases : list (N * N)) : option (N * N) :=
  match cases with
  | c :: r =>
    let mn := fold_left (fun m c => N.min m (fst c)) r (fst c) in
    let mx := fold_left (fun m c => N.max m (fst c)) r (fst c) in
    if (3 <? lenN cases) && (mx - mn <? 256) then Some (mn, mx) else None
  | [] => None
  end.
Definition case_target (cases : list (N * N)) (default v : N) : N :=
  match find (fun c => fst c =? v) cases with Some c => snd c | None => default end.
Definition up_to (a b : N) : list N := map (fun i => a + N.of_nat i) (seq 0 (S (N.to_nat (b - a)))).
Definition table_size (cases : list (N * N)) : N :=
  match dense cases with Some (mn, mx) => 20 + (mx - mn + 1) * 4 | None => 6 + lenN cases * 12 end.
Definition table_code (cases : list (N * N)) (default : N) : list N :=
  match dense cases with
  | Some (mn, mx) =>
    le8 mn ++ le8 mx ++ le4 default ++ flat_map (fun v => le4 (case_target cases default v)) (up_to mn mx)
  | None =>
    le2 (lenN cases) ++ le4 default ++ flat_map (fun c => le8 (fst c) ++ le4 (snd c)) cases
  end.
(** A relative offset, as 32 bits of the difference of two size_t *)
Definition rel (a b : N) : N := ofZ 4 (Z.of_N a - Z.of_N b).

Fixpoint patch_jumps (jumps : list N) (target : N) : par unit :=
  match jumps with
  | [] => ret tt
  | j :: r => write_at (j + 1) (le4 (rel target (j + 5))) ;; patch_jumps r target
  end.

(** parse_switch up to "{" (cnd_parser.c:513-525): where the instruction is *)
Definition switch_head : par N :=
  consume TLparen ;;
  let% t := get p_cur in
  consume TIdentifier ;;
  let% key := add_name (ttext t) in
  consume TRparen ;;
  consume TLbrace ;;
  let% loc := here in
  emit ([0x51] ++ le2 key ++ le4 0) ;; ret loc.
(** parse_switch from "}" (cnd_parser.c:634-727) *)
Definition switch_tail (loc : N) (cases : list (N * N)) (jumps : list N) (default : N) : par unit :=
  consume TRbrace ;;
  let% start := here in
  let stop := start + table_size cases in
  let default := if default =? no_default then rel stop (loc + 7) else default in
  when (some (dense cases)) (write_at loc [0x53]) ;;
  emit (table_code cases default) ;;
  patch_jumps jumps stop ;;
  write_at (loc + 3) (le4 (rel start (loc + 7))).

(** ** parse_field, parse_if, parse_block and the cases of parse_switch *)
Fixpoint parse_field (E : env) (fuel : nat) : par unit :=
  match fuel with
  | O => no_fuel
  | S f =>
    (* cnd_parser.c:730-749 *)
    let% err := get p_err in
    if err then ret tt
    else
      skip_docs f ;;
      let% k := get (fun p => tk (p_cur p)) in
      match k with
      | TSwitch =>
        advance ;;
        let% loc := switch_head in
        case_loop E f loc [] [] no_default
      | TIf => advance ;; parse_if E f
      | _ => let% d := decorators E f deco0 in field_rest E d
      end
  end
(** parse_if, cnd_parser.c:471-505 *)
with parse_if (E : env) (fuel : nat) : par unit :=
  match fuel with
  | O => no_fuel
  | S f =>
    consume TLparen ;;
    parse_expression E f ;;
    consume TRparen ;;
    let% jf := here in
    emit ([0x50] ++ le4 0) ;;
    parse_block E f ;;
    let% je := here in
    emit ([0x52] ++ le4 0) ;;
    let% other := here in
    write_at (jf + 1) (le4 (rel other (jf + 5))) ;;
    let% e := at_kind TElse in
    (if e then
       advance ;;
       let% i := at_kind TIf in
       if i then advance ;; parse_if E f else parse_block E f
     else ret tt) ;;
    let% stop := here in
    write_at (je + 1) (le4 (rel stop (je + 5)))
  end
(** parse_block, cnd_parser.c:1297-1317 *)
with parse_block (E : env) (fuel : nat) : par unit :=
  match fuel with
  | O => no_fuel
  | S f => consume TLbrace ;; block_loop E f ;; consume TRbrace
  end
with block_loop (E : env) (fuel : nat) : par unit :=
  match fuel with
  | O => no_fuel
  | S f =>
    let% t := get p_cur in
    let% err := get p_err in
    if is_kind TRbrace t || is_kind TEof t || err then ret tt
    else if is_kind TDoc t then advance ;; block_loop E f
    else parse_field E f ;; block_loop E f
  end
(** the loop of parse_switch (cnd_parser.c:541-633) *)
with case_loop (E : env) (fuel : nat) (loc : N) (cases : list (N * N)) (jumps : list N) (default : N) : par unit :=
  match fuel with
  | O => no_fuel
  | S f =>
    let body :=
      (let% b := at_kind TLbrace in
       if b then parse_block E f else parse_field E f) ;;
      let% j := here in
      emit ([0x52] ++ le4 0) ;; ret j in
    let% t := get p_cur in
    let% err := get p_err in
    if is_kind TRbrace t || is_kind TEof t || err then switch_tail loc cases jumps default
    else
      match tk t with
      | TCase =>
        advance ;;
        let% v := case_value in
        consume TColon ;;
        when (existsb (fun c => fst c =? v) cases) error ;;
        let% at_ := here in
        let% j := body in
        case_loop E f loc (cases ++ [(v, rel at_ (loc + 7))]) (jumps ++ [j]) default
      | TDefault =>
        advance ;;
        consume TColon ;;
        let% at_ := here in
        let% j := body in
        case_loop E f loc cases (jumps ++ [j]) (rel at_ (loc + 7))
      | _ => error ;; advance ;; case_loop E f loc cases jumps default
      end
  end.

(** ** parse_enum, cnd_parser.c:1319-1414 *)
Fixpoint enum_loop (fuel : nat) (names : list (list N)) (vals : list (list N * Z)) (next : Z) : par (list (list N * Z)) :=
  match fuel with
  | O => no_fuel
  | S f =>
    let% t := get p_cur in
    let% err := get p_err in
    if is_kind TRbrace t || is_kind TEof t || err then ret vals
    else if is_kind TDoc t then advance ;; enum_loop f names vals next
    else
      consume TIdentifier ;;
      (let names' := fst (strtab_add names (ttext t)) in
       when (lenN names' =? lenN names) error ;;
       let% eq := at_kind TEquals in
       let% v := if eq then advance ;; take_i64 else ret next in
       when (existsb (fun x => (snd x =? v)%Z) vals) error ;;
       if (v =? 2 ^ 63 - 1)%Z then undef UOverflow
       else
         let% comma := at_kind TComma in
         when comma advance ;;
         enum_loop f names' (vals ++ [(ttext t, v)]) (v + 1))
  end.
Definition enum_base (t : token) : option N := if match_keyword t "byte" then None else int_name t.
Definition parse_enum (fuel : nat) : par unit :=
  let% name := get p_cur in
  consume TIdentifier ;;
  let% dup := get (fun p => some (find_enum (p_enums p) (ttext name)) || some (find_struct (p_structs p) (ttext name))) in
  when dup error ;;
  let% colon := at_kind TColon in
  let% ty :=
    if colon then
      advance ;;
      let% t := get p_cur in
      consume TIdentifier ;;
      match enum_base t with Some op => ret op | None => error ;; ret 0x12 end
    else ret 0x12 in
  consume TLbrace ;;
  let% vals := enum_loop fuel [] [] 0 in
  consume TRbrace ;;
  upd_p (fun p => add_site true name (set_defs (p_structs p) (p_enums p ++ [{| en_name := ttext name; en_type := ty; en_vals := vals |}]) p)).

(** ** parse_struct, cnd_parser.c:1416-1482.  The definition is registered before its body is parsed, without code. *)
Definition parse_struct (E : env) (fuel : nat) : par unit :=
  let% name := get p_cur in
  consume TIdentifier ;;
  let% dup := get (fun p => some (find_struct (p_structs p) (ttext name)) || some (find_enum (p_enums p) (ttext name))) in
  when dup error ;;
  let% old := get (fun p => p) in
  upd_p (fun p => add_site false name (set_struct (Some (ttext name)) [] (set_out [] (set_defs (p_structs p ++ [(ttext name, [])]) (p_enums p) p)))) ;;
  when (p_unaligned old) (emit [0x25; 0x02] ;; upd_p (set_bits false true 0 true)) ;;
  parse_block E fuel ;;
  let% p := get (fun p => p) in
  when (p_bitmode p && negb (p_bitmode old))
    (when (p_bits_valid p && negb (p_bits p mod 8 =? 0)%Z) error ;; emit [0x26]) ;;
  upd_p (fun p =>
    set_bits (p_unaligned p) (p_bitmode old) (p_bits old) (p_bits_valid old)
      (set_struct (p_sname old) []
         (set_out (p_out old) (set_defs (p_structs old ++ [(ttext name, p_out p)]) (p_enums p) p)))).

(** ** parse_packet, cnd_parser.c:1484-1528 *)
Definition parse_packet (E : env) (fuel : nat) : par unit :=
  let% name := get p_cur in
  consume TIdentifier ;;
  let% dup := get (fun p => some (find_struct (p_structs p) (ttext name)) || some (find_enum (p_enums p) (ttext name))) in
  when dup error ;;
  let% loc := here in
  emit ([0x07] ++ le2 0xFFFF) ;;
  let% eq := at_kind TEquals in
  (if eq then
     advance ;;
     let% sn := get p_cur in
     consume TIdentifier ;;
     consume TSemicolon ;;
     let% sd := get (fun p => find_struct (p_structs p) (ttext sn)) in
     match sd with None => error | Some code => emit code end
   else
     upd_p (fun p => set_struct (p_sname p) [] p) ;;
     parse_block E fuel ;;
     upd_p (fun p => set_struct (p_sname p) [] p)) ;;
  let% key := add_name (ttext name) in
  write_at (loc + 1) (le2 key).

(** ** Imports and the top level *)

(** resolve_path, cnd_parser.c:1531-1548: the directory part ends with the last slash or backslash *)
Fixpoint dir_part (l : list N) : list N :=
  match l with
  | [] => []
  | c :: r => if existsb (fun c => (c =? 47) || (c =? 92)) l then c :: dir_part r else []
  end.
Definition resolve_path (base r : list N) : list N := dir_part base ++ r.

(** parse_top_level, cnd_parser.c:1617-1685, and parse_import, 1550-1615 *)
Fixpoint top_level (E : env) (fuel : nat) : par unit :=
  match fuel with
  | O => no_fuel
  | S f =>
    let% t := get p_cur in
    let% err := get p_err in
    if is_kind TEof t || err then
      let% none := get (fun p => (p_packets p =? 0) && (p_depth p =? 0)) in
      when none error
    else if is_kind TDoc t then advance ;; top_level E f
    else
      top_decorators E f ;;
      let% k := get (fun p => tk (p_cur p)) in
      (match k with
       | TStruct => advance ;; parse_struct E f
       | TEnum => advance ;; parse_enum f
       | TPacket =>
         let% n := get p_packets in
         when (0 <? n) error ;;
         upd_p (set_packets (n + 1)) ;;
         advance ;; parse_packet E f
       | TSemicolon => advance
       | TEof => ret tt
       | _ => error
       end) ;;
      top_level E f
  end
with top_decorators (E : env) (fuel : nat) : par unit :=
  match fuel with
  | O => no_fuel
  | S f =>
    let% b := at_kind TAt in
    if negb b then ret tt
    else
      advance ;;
      let% t := get p_cur in
      consume TIdentifier ;;
      (if match_keyword t "version" then
         consume TLparen ;;
         let% v := take_u32 in
         emit [0x05; v mod 256] ;;
         consume TRparen
       else if match_keyword t "import" then parse_import E f
       else if match_keyword t "big_endian" then emit [0x02]
       else if match_keyword t "little_endian" || match_keyword t "le" then emit [0x01]
       else if match_keyword t "unaligned_bytes" then upd_p (fun p => set_bits true (p_bitmode p) (p_bits p) (p_bits_valid p) p)
       else
         let% paren := at_kind TLparen in
         when paren (consume TLparen ;; skip_to_paren f ;; consume TRparen)) ;;
      top_decorators E f
  end
with parse_import (E : env) (fuel : nat) : par unit :=
  match fuel with
  | O => no_fuel
  | S f =>
    consume TLparen ;;
    let% t := get p_cur in
    consume TString ;;
    consume TRparen ;;
    (if 256 <=? lenN (ttext t) then error
     else
       let% old := get (fun p => p) in
       let full := e_canon E (resolve_path (p_path old) (ttext t)) in
       if existsb (same_text full) (p_imports old) then ret tt
       else
         upd_p (set_import (fst (strtab_add (p_imports old) full)) (p_path old) (p_depth old)) ;;
         match e_read E full with
         | None => error
         | Some src =>
           match lex src with
           | None => no_fuel
           | Some toks =>
             upd_p (fun p => set_import (p_imports p) full (p_depth old + 1) (set_tok toks (p_cur p) (p_prev p) p)) ;;
             advance ;;
             top_level E f ;;
             upd_p (fun p => set_import (p_imports p) (p_path old) (p_depth old)
                               (set_tok (p_toks old) (p_cur old) (p_prev old) p))
           end
         end)
  end.

(** ** cnd_compile_file, cndc.c:258-385 *)

(** Compiled into an image; refused; undefined behaviour; out of fuel *)
Inductive compiled := CImage (img : list N) | CRefused | CUndef (u : ubk) | CFuel.

(** The parser as cnd_compile_file sets it up; the first token and its predecessor are zeroed *)
Definition token0 : token := {| tk := TEof; tpos := 0; ttext := []; tline := 0 |}.
Definition parser0 (path : list N) (toks : list token) : pst :=
  mkp toks token0 token0 [] [] [] [] [path] path None [] false 0 0 false false 0 false [] [].
Definition parse_file (E : env) (fuel : nat) (path src : list N) : pres unit :=
  match lex src with
  | None => PFuel
  | Some toks => (advance ;; top_level E fuel) (parser0 path toks)
  end.
Definition compile_file (E : env) (fuel : nat) (in_path : list N) : compiled :=
  let path := e_canon E in_path in
  match e_read E path with
  | None => CRefused
  | Some src =>
    match parse_file E fuel path src with
    | PUb u => CUndef u
    | PFuel => CFuel
    | POk _ p =>
      if p_err p then CRefused
      else
        match optimize_strings (p_strs p) (p_out p) with
        | None => CFuel
        | Some (strs, bc) => CImage (image strs bc)
        end
    end
  end.
