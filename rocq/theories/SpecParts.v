(** Packets with bit fields, checksums, converted and optional fields next to the members of [SpecNest]: how they are written and
    what they mean. *)
From Coq Require Import Strings.String.
From Verif Require Import Base SpecBytes SpecVM ModelText SpecText ModelWord ModelFloat ModelVM ModelTrans ModelParse SpecParse SpecNames SpecCrc SpecPacket SpecMessage SpecNest.

(** ** Syntax *)

(** An integer of [w] bits; padding of [w] zero bits; filling up the byte with zeros or ones *)
Inductive bitpart := Bit (signed : bool) (w : N) (n : list N) | Pad (w : N) | Fill (one : bool).
(** Decorators of a checksum field *)
Inductive crcdec := COrder (big : bool) | CWidth (wide : bool) | CPoly (v : N) | CInit (v : N) | CXor (v : N) | CRefIn | CRefOut.
(** Decorators of a field of one number: byte order; what is added, subtracted, multiplied or divided by when the stored number is
    read; binary64 factor and offset; a field that may be missing at the end of the message *)
Inductive numdec := NOrder (big : bool) | NAdd (z : Z) | NSub (z : Z) | NMul (z : Z) | NDiv (z : Z) | NScale (x : N) | NOffset (x : N) | NOptional.
(** A member, a run of bit fields, a checksum of all that precedes it, or a field of one number of type [ty] *)
Inductive part := Member (m : member) | Bits (l : list bitpart) | Check (ds : list crcdec) (n : list N) | Numeric (ds : list numdec) (ty : N) (n : list N).
Record frame := { fr_structs : list structure; fr_orders : list bool; fr_name : list N; fr_parts : list part }.

(** The parameters of a checksum: @crc sets those customary for its width, the others change one each *)
Record crcset := { k_big : bool; k_wide : option bool; k_poly : N; k_init : N; k_xor : N; k_in : bool; k_out : bool }.
Definition crcset0 : crcset := {| k_big := false; k_wide := None; k_poly := 0; k_init := 0; k_xor := 0; k_in := false; k_out := false |}.
Definition set_crc (c : crcset) (d : crcdec) : crcset :=
  match d with
  | COrder b => {| k_big := b; k_wide := k_wide c; k_poly := k_poly c; k_init := k_init c; k_xor := k_xor c; k_in := k_in c; k_out := k_out c |}
  | CWidth false => {| k_big := k_big c; k_wide := Some false; k_poly := 0x1021; k_init := 0xFFFF; k_xor := 0; k_in := false; k_out := false |}
  | CWidth true =>
      {| k_big := k_big c; k_wide := Some true; k_poly := 0x04C11DB7; k_init := 0xFFFFFFFF; k_xor := 0xFFFFFFFF; k_in := true; k_out := true |}
  | CPoly v => {| k_big := k_big c; k_wide := k_wide c; k_poly := v; k_init := k_init c; k_xor := k_xor c; k_in := k_in c; k_out := k_out c |}
  | CInit v => {| k_big := k_big c; k_wide := k_wide c; k_poly := k_poly c; k_init := v; k_xor := k_xor c; k_in := k_in c; k_out := k_out c |}
  | CXor v => {| k_big := k_big c; k_wide := k_wide c; k_poly := k_poly c; k_init := k_init c; k_xor := v; k_in := k_in c; k_out := k_out c |}
  | CRefIn => {| k_big := k_big c; k_wide := k_wide c; k_poly := k_poly c; k_init := k_init c; k_xor := k_xor c; k_in := true; k_out := k_out c |}
  | CRefOut => {| k_big := k_big c; k_wide := k_wide c; k_poly := k_poly c; k_init := k_init c; k_xor := k_xor c; k_in := k_in c; k_out := true |}
  end.
Definition crc_of (ds : list crcdec) : crcset := fold_left set_crc ds crcset0.
Definition crc_width (c : crcset) : N := match k_wide c with Some true => 4 | _ => 2 end.
(** The checksum of [data]; parameters are cut to its width *)
Definition checksum (c : crcset) (data : list N) : N :=
  let w := 8 * crc_width c in
  crc_spec w (k_poly c mod 2 ^ w) (crc_start w (k_poly c mod 2 ^ w) (k_in c) (k_out c) (k_init c mod 2 ^ w)) (k_xor c mod 2 ^ w) (k_in c) (k_out c) data.

(** How the number stored and the value shown are related. The last decorator decides; @offset keeps the factor of a @scale
    before it, @scale the offset given by any @offset before it *)
Inductive conversion := CSame | CAdd (z : Z) | CSub (z : Z) | CMul (z : Z) | CDiv (z : Z) | CLinear (factor offset : N).
Definition one64 : N := 0x3FF0000000000000.
Record numset := { u_big : bool; u_conv : conversion; u_off : N }.
Definition numset0 : numset := {| u_big := false; u_conv := CSame; u_off := 0 |}.
Definition set_num (c : numset) (d : numdec) : numset :=
  match d with
  | NOrder b => {| u_big := b; u_conv := u_conv c; u_off := u_off c |}
  | NAdd z => {| u_big := u_big c; u_conv := CAdd z; u_off := u_off c |}
  | NSub z => {| u_big := u_big c; u_conv := CSub z; u_off := u_off c |}
  | NMul z => {| u_big := u_big c; u_conv := CMul z; u_off := u_off c |}
  | NDiv z => {| u_big := u_big c; u_conv := CDiv z; u_off := u_off c |}
  | NScale x => {| u_big := u_big c; u_conv := CLinear x (u_off c); u_off := u_off c |}
  | NOffset x => {| u_big := u_big c; u_conv := CLinear (match u_conv c with CLinear a _ => a | _ => one64 end) x; u_off := x |}
  | NOptional => c
  end.
Definition num_of (ds : list numdec) : numset := fold_left set_num ds numset0.
Definition is_optional (d : numdec) : bool := match d with NOptional => true | _ => false end.
(** The number meant by the pattern [raw] of type [ty]; 64-bit numbers *)
Definition meant (ty raw : N) : Z := number (width ty) (type_signed ty) raw.
Definition small64 (z : Z) : Prop := (- 2 ^ 63 <= z < 2 ^ 63)%Z.
(** Least and greatest number of an integer type *)
Definition least (ty : N) : Z := if type_signed ty then (- 2 ^ (8 * Z.of_N (width ty) - 1))%Z else 0%Z.
Definition greatest (ty : N) : Z := if type_signed ty then (2 ^ (8 * Z.of_N (width ty) - 1) - 1)%Z else (2 ^ (8 * Z.of_N (width ty)) - 1)%Z.
(** Encoding the value [v] stores [raw] (the number must fit; division drops the remainder) ... *)
Definition stores (c : conversion) (ty v raw : N) : Prop :=
  match c with
  | CSame => raw = v
  | CAdd z => v < 2 ^ 64 /\ small64 (meant ty raw) /\ meant ty raw = (number 8 true v - z)%Z
  | CSub z => v < 2 ^ 64 /\ small64 (meant ty raw) /\ meant ty raw = (number 8 true v + z)%Z
  | CMul z => v < 2 ^ 64 /\ small64 (meant ty raw) /\ z <> 0%Z /\ meant ty raw = Z.quot (number 8 true v) z
  | CDiv z => v < 2 ^ 64 /\ small64 (meant ty raw) /\ meant ty raw = (number 8 true v * z)%Z
  | CLinear a b => v < 2 ^ 64 /\ f_to_int F64 (least ty) (greatest ty) (fdiv F64 (fsub F64 v b) a) = Ok (meant ty raw)
  end.
(** ... and decoding [raw] shows [v] *)
Definition reports (c : conversion) (ty raw v : N) : Prop :=
  match c with
  | CSame => raw = v
  | CAdd z => v < 2 ^ 64 /\ small64 (meant ty raw) /\ number 8 true v = (meant ty raw + z)%Z
  | CSub z => v < 2 ^ 64 /\ small64 (meant ty raw) /\ number 8 true v = (meant ty raw - z)%Z
  | CMul z => v < 2 ^ 64 /\ small64 (meant ty raw) /\ number 8 true v = (meant ty raw * z)%Z
  | CDiv z => v < 2 ^ 64 /\ small64 (meant ty raw) /\ z <> 0%Z /\ number 8 true v = Z.quot (meant ty raw) z
  | CLinear a b => v = fadd F64 (fmul F64 (f_of_Z F64 (meant ty raw)) a) b
  end.
(** The type under which the value is shown, its size, and the conversion as reported *)
Definition shown_type (c : conversion) (ty : N) : N := match c with CSame => ty | CLinear _ _ => 0x19 | _ => 0x17 end.
Definition shown_size (c : conversion) (ty : N) : N := match c with CSame => width ty | _ => 8 end.
Definition trans_of (c : conversion) : trans :=
  match c with CSame => TNone | CAdd z => TAdd z | CSub z => TSub z | CMul z => TMul z | CDiv z => TDiv z | CLinear a b => TScale a b end.

(** ** Words *)
Definition deco_words (s : string) (a : list word) : list word := [sign TAt "@"; ident s] ++ a.
Definition in_parens (d : list N) : list word := [sign TLparen "("; (TNumber, d); sign TRparen ")"].
Definition bit_types (signed : bool) : list N := if signed then [0x14; 0x15; 0x16; 0x17] else [0x10; 0x11; 0x12; 0x13].
Inductive bit_read : bitpart -> list word -> Prop :=
| read_bit ty s sg w n d : In (ty, s) type_words -> In ty (bit_types sg) -> literal d w -> 1 <= w <= 64 ->
    bit_read (Bit sg w n) [ident s; (TIdentifier, n); sign TColon ":"; (TNumber, d); sign TSemicolon ";"]
| read_pad w d : literal d w -> w <= 64 -> bit_read (Pad w) (deco_words "pad" (in_parens d) ++ [sign TSemicolon ";"])
| read_fill : bit_read (Fill false) (deco_words "fill" [] ++ [sign TSemicolon ";"])
| read_filled b d : literal d (if b : bool then 1 else 0) -> bit_read (Fill b) (deco_words "fill" (in_parens d) ++ [sign TSemicolon ";"]).
Inductive crcdec_read : crcdec -> list word -> Prop :=
| read_corder b s : In (b, s) order_words -> crcdec_read (COrder b) (deco_words s [])
| read_cwidth (b : bool) d : literal d (if b then 32 else 16) -> crcdec_read (CWidth b) (deco_words "crc" (in_parens d))
| read_cpoly v d : literal d v -> v < 2 ^ 32 -> crcdec_read (CPoly v) (deco_words "crc_poly" (in_parens d))
| read_cinit v d : literal d v -> v < 2 ^ 32 -> crcdec_read (CInit v) (deco_words "crc_init" (in_parens d))
| read_cxor v d : literal d v -> v < 2 ^ 32 -> crcdec_read (CXor v) (deco_words "crc_xor" (in_parens d))
| read_crefin : crcdec_read CRefIn (deco_words "crc_refin" [])
| read_crefout : crcdec_read CRefOut (deco_words "crc_refout" []).
(** [dbl] is the double that a text stands for *)
Inductive numdec_read (dbl : list N -> N) : numdec -> list word -> Prop :=
| read_norder b s : In (b, s) order_words -> numdec_read dbl (NOrder b) (deco_words s [])
| read_nadd z d : int_text d z -> numdec_read dbl (NAdd z) (deco_words "add" (in_parens d))
| read_nsub z d : int_text d z -> numdec_read dbl (NSub z) (deco_words "sub" (in_parens d))
| read_nmul z d : int_text d z -> numdec_read dbl (NMul z) (deco_words "mul" (in_parens d))
| read_ndiv z d : int_text d z -> numdec_read dbl (NDiv z) (deco_words "div" (in_parens d))
| read_nscale d : lenN d < 63 -> dbl d < 2 ^ 64 -> numdec_read dbl (NScale (dbl d)) (deco_words "scale" (in_parens d))
| read_noffset d : lenN d < 63 -> dbl d < 2 ^ 64 -> numdec_read dbl (NOffset (dbl d)) (deco_words "offset" (in_parens d))
| read_noptional : numdec_read dbl NOptional (deco_words "optional" []).
(** One after another *)
Section Several.
  Context {A : Type} (r : A -> list word -> Prop).
  Inductive several : list A -> list word -> Prop :=
  | several_none : several [] []
  | several_more a l ws wr : r a ws -> several l wr -> several (a :: l) (ws ++ wr).
End Several.
Inductive part_read (dbl : list N -> N) (env : list structure) : part -> list word -> Prop :=
| read_member m ws : member_read env m ws -> part_read dbl env (Member m) ws
| read_run l ws : several bit_read l ws -> part_read dbl env (Bits l) ws
| read_check ds n ws ty s : several crcdec_read ds ws -> k_wide (crc_of ds) = Some ty -> In (if ty : bool then 0x12 else 0x11, s) type_words ->
    part_read dbl env (Check ds n) (ws ++ [ident s; (TIdentifier, n); sign TSemicolon ";"])
| read_number ds n ws ty s : several (numdec_read dbl) ds ws -> (u_conv (num_of ds) <> CSame -> ty <= 0x17) -> In (ty, s) type_words ->
    part_read dbl env (Numeric ds ty n) (ws ++ [ident s; (TIdentifier, n); sign TSemicolon ";"]).

(** Names of the packet's own fields; names that instructions refer to; all names *)
Definition bit_names (b : bitpart) : list (list N) := match b with Bit _ _ n => [n] | _ => [] end.
Definition own_names (p : part) : list (list N) :=
  match p with Member m => [member_name m] | Bits l => flat_map bit_names l | Check _ n | Numeric _ _ n => [n] end.
Definition part_names (p : part) : list (list N) :=
  match p with Member m => member_names [] m | Bits l => flat_map bit_names l | Check _ _ => [] | Numeric _ _ n => [n] end.
Definition frame_names (k : frame) : list (list N) := flat_map part_names (fr_parts k) ++ [fr_name k].
Definition frame_all (k : frame) : list (list N) :=
  flat_map (fun d => flat_map (member_names []) (snd d)) (fr_structs k) ++ flat_map own_names (fr_parts k) ++ frame_names k.
Definition frame_read (dbl : list N -> N) (k : frame) (ws : list word) : Prop :=
  exists sw os ps, structs_read [] (fr_structs k) sw /\ orders_read top_order_words (fr_orders k) os /\ several (part_read dbl (fr_structs k)) (fr_parts k) ps /\
  ~ In (fr_name k) (map fst (fr_structs k)) /\ NoDup (flat_map own_names (fr_parts k)) /\
  ws = sw ++ os ++ [sign TPacket "packet"; (TIdentifier, fr_name k); sign TLbrace "{"] ++ ps ++ [sign TRbrace "}"].
Definition holds_frame (E : env) (path : list N) (k : frame) (toks : list token) : Prop :=
  exists src ws, e_read E (e_canon E path) = Some src /\ lex src = Some toks /\ map word_of toks = ws ++ [(TEof, [])] /\ frame_read (e_strtod E) k ws.

(** ** Values and their bytes *)

(** Values of a member; numbers for the bit fields; nothing for a checksum; the pattern stored for a field of one number, or that it
    is missing *)
Inductive given := Tree (t : tree) | Nums (l : list N) | Auto | Stored (raw : N) | Missing.

(** Bits in the order they are sent: an integer starts with its least significant bit in little-endian order, with its most
    significant bit in big-endian order *)
Definition upto (n : N) : list N := map N.of_nat (seq 0 (N.to_nat n)).
Definition bits_of (e : endian) (w v : N) : list bool := map (fun i => N.testbit v (match e with LE => i | BE => w - 1 - i end)) (upto w).
Fixpoint stream_of (e : endian) (at_ : N) (l : list bitpart) (vs : list N) : list bool :=
  match l, vs with
  | Bit _ w _ :: l, v :: vs => bits_of e w v ++ stream_of e (at_ + w) l vs
  | Pad w :: l, vs => repeat false (N.to_nat w) ++ stream_of e (at_ + w) l vs
  | Fill b :: l, vs => let w := (8 - at_ mod 8) mod 8 in repeat b (N.to_nat w) ++ stream_of e (at_ + w) l vs
  | _, _ => []
  end.
(** Eight bits make a byte, whose first bit is its least significant one in little-endian order, its most significant one in
    big-endian order *)
Definition byte_of (e : endian) (l : list bool) : N :=
  fold_right (fun i a => (if nth (N.to_nat i) l false then 2 ^ (match e with LE => i | BE => 7 - i end) else 0) + a) 0 (upto 8).
Definition packed (e : endian) (l : list bool) : list N :=
  map (fun i => byte_of e (skipn (8 * N.to_nat i) l)) (upto (lenN l / 8)).
Definition part_bytes (before : list N) (p : part) (g : given) (o : endian) : list N * endian :=
  match p, g with
  | Member m, Tree t => member_bytes m t o
  | Bits l, Nums vs => (packed o (stream_of o 0 l vs), o)
  | Check ds _, Auto => let c := crc_of ds in
      (bytes_of (if k_big c then BE else o) (N.to_nat (crc_width c)) (checksum c before), if k_big c then LE else o)
  | Numeric ds ty _, Stored raw => let c := num_of ds in (bytes_of (if u_big c then BE else o) (N.to_nat (width ty)) raw, if u_big c then LE else o)
  | Numeric ds _ _, Missing => ([], if u_big (num_of ds) then LE else o)
  | _, _ => ([], o)
  end.
Fixpoint parts_bytes (before : list N) (ps : list part) (gs : list given) (o : endian) : list N * endian :=
  match ps, gs with
  | p :: ps, g :: gs => let (x, o) := part_bytes before p g o in let (y, o) := parts_bytes (before ++ x) ps gs o in (x ++ y, o)
  | _, _ => ([], o)
  end.
Definition frame_order (k : frame) : endian := if last (fr_orders k) false then BE else LE.
Definition frame_bytes (k : frame) (gs : list given) : list N := fst (parts_bytes [] (fr_parts k) gs (frame_order k)).

(** Values that parts can have; a run of bit fields fills whole bytes *)
Definition bit_fits (sg : bool) (w v : N) : Prop :=
  if sg then v < 2 ^ 64 /\ (- 2 ^ (Z.of_N w - 1) <= number 8 true v < 2 ^ (Z.of_N w - 1))%Z else v < 2 ^ w.
Fixpoint bits_ok (l : list bitpart) (vs : list N) : Prop :=
  match l, vs with
  | [], [] => True
  | Bit sg w _ :: l, v :: vs => bit_fits sg w v /\ bits_ok l vs
  | (Pad _ | Fill _) :: l, vs => bits_ok l vs
  | _, _ => False
  end.
Definition part_ok (p : part) (g : given) : Prop :=
  match p, g with
  | Member m, Tree t => tree_ok m t
  | Bits l, Nums vs => bits_ok l vs /\ lenN (stream_of LE 0 l vs) mod 8 = 0
  | Check _ _, Auto => True
  | Numeric _ ty _, Stored raw => number_ok ty raw
  | Numeric ds _ _, Missing => In NOptional ds /\ u_conv (num_of ds) = CSame
  | _, _ => False
  end.
Definition part_skips (names : N) (p : part) (g : given) : Prop :=
  match p, g with Member m, Tree t => tree_skips names m t | _, _ => True end.
Definition part_depth (p : part) : N := match p with Member m => depth m | _ => 0 end.

(** ** Conversations *)
Fixpoint bits_said (m : mode) (id : list N -> N) (l : list bitpart) (vs : list N) (t : list event) : Prop :=
  match l, vs with
  | [], [] => t = []
  | Bit sg w n :: l, v :: vs => exists r t', r_ok r = true /\ (m = Enc -> answer 8 0 r = v) /\ bits_said m id l vs t' /\
      t = (ask (id n) (if sg then 0x21 else 0x20) (cvar 8 (match m with Enc => 0 | Dec => v end)) (if sg then HBitI w else HBitU w), r) :: t'
  | (Pad _ | Fill _) :: l, vs => bits_said m id l vs t
  | _, _ => False
  end.
(** What is said about the parts from byte [pos] on *)
Inductive parts_said (m : mode) (id : list N -> N) : N -> list N -> list part -> list given -> list event -> Prop :=
| parts_said_none pos old : parts_said m id pos old [] [] []
| parts_said_member pos old a d z t ps gs u : said m id [] pos old a d z t ->
    parts_said m id (pos + z) (skipn (N.to_nat z) old) ps gs u -> parts_said m id pos old (Member a :: ps) (Tree d :: gs) (t ++ u)
| parts_said_bits pos old l vs z t ps gs u : bits_said m id l vs t -> 8 * z = lenN (stream_of LE 0 l vs) ->
    parts_said m id (pos + z) (skipn (N.to_nat z) old) ps gs u -> parts_said m id pos old (Bits l :: ps) (Nums vs :: gs) (t ++ u)
| parts_said_check pos old ds n ps gs u (z := crc_width (crc_of ds)) :
    parts_said m id (pos + z) (skipn (N.to_nat z) old) ps gs u -> parts_said m id pos old (Check ds n :: ps) (Auto :: gs) u
(** An encoder asks for a value and stores it, a decoder shows it *)
| parts_said_number pos old ds ty n raw v r ps gs u (c := u_conv (num_of ds)) (z := width ty) : r_ok r = true ->
    match m with Enc => answer (shown_size c ty) 0 r = v /\ stores c ty v raw | Dec => reports c ty raw v end ->
    parts_said m id (pos + z) (skipn (N.to_nat z) old) ps gs u ->
    parts_said m id pos old (Numeric ds ty n :: ps) (Stored raw :: gs)
      ((ask (id n) (shown_type c ty) (cvar (shown_size c ty) (match m with Enc => 0 | Dec => v end)) (HField ty (trans_of c)), r) :: u)
(** A missing field: there is no room for it; that is said *)
| parts_said_missing pos old ds ty n r ps gs u : r_ok r = true -> lenN old < width ty -> parts_said m id pos old ps gs u ->
    parts_said m id pos old (Numeric ds ty n :: ps) (Missing :: gs) ((ask (id n) ty (cvar (width ty) 0) (HMissing ty), r) :: u).

(** ** Instructions *)
Definition bit_instr (id : list N -> N) (b : bitpart) : instr :=
  match b with
  | Bit sg w n => ins (if sg then 0x21 else 0x20) [id n] [w]
  | Pad w => ins 0x23 [] [w]
  | Fill b => ins 0x24 [] [if b then 1 else 0]
  end.
Definition check_instr (c : crcset) : instr :=
  let n := N.to_nat (crc_width c) in
  ins (match k_wide c with Some true => 0x49 | _ => 0x44 end) []
    (bytes_of LE n (k_poly c) ++ bytes_of LE n (k_init c) ++ bytes_of LE n (k_xor c) ++ [(if k_in c then 1 else 0) + (if k_out c then 2 else 0)]).
Definition conv_instrs (c : conversion) : list instr :=
  let number z := bytes_of LE 8 (ofZ 8 z) in
  match c with
  | CSame => []
  | CAdd z => [ins 0x45 [] (number z)]
  | CSub z => [ins 0x46 [] (number z)]
  | CMul z => [ins 0x47 [] (number z)]
  | CDiv z => [ins 0x48 [] (number z)]
  | CLinear a b => [ins 0x43 [] (bytes_of LE 8 a ++ bytes_of LE 8 b)]
  end.
Definition part_instrs (id : list N -> N) (p : part) : list instr :=
  match p with
  | Member m => member_instrs id [] m
  | Bits l => map (bit_instr id) l
  | Check ds _ => marked (k_big (crc_of ds)) [check_instr (crc_of ds)]
  | Numeric ds ty n => map (fun _ => ins 0x4A [] []) (filter is_optional ds) ++ conv_instrs (u_conv (num_of ds)) ++ marked (u_big (num_of ds)) [ins ty [id n] []]
  end.
Definition frame_instrs (id : list N -> N) (k : frame) : list instr :=
  map (fun b : bool => ins (if b then 0x02 else 0x01) [] []) (fr_orders k) ++ ins 0x07 [id (fr_name k)] [] :: flat_map (part_instrs id) (fr_parts k).
