(** Messages of packets of plain fields: values, their bytes, and how the host supplies or receives them. *)
From Verif Require Import Base SpecBytes SpecVM ModelVM ModelTrans SpecParse SpecNames SpecPacket.

(** ** Values and their bytes *)

(** A number (the bit pattern of an integer, float or boolean), several, or the bytes of a string *)
Inductive datum := Value (v : N) | Values (vs : list N) | Characters (l : list N).
(** Bytes of a scalar type *)
Definition width (ty : N) : N := match scalar_bytes ty with Some n => n | None => 0 end.
(** A number of a scalar type; booleans are 0 and 1 *)
Definition number_ok (ty v : N) : Prop := v < 2 ^ (8 * width ty) /\ (ty = 0x1A -> v <= 1).
(** Values that a field can have. Arrays have fewer than 2^32 - 1 elements. *)
Definition datum_ok (c : content) (d : datum) : Prop :=
  match c, d with
  | Scalar ty One, Value v => number_ok ty v
  | Scalar ty (Fixed n), Values vs => lenN vs = n /\ n < 2 ^ 32 - 1 /\ Forall (number_ok ty) vs
  | Scalar ty (Counted w), Values vs => lenN vs < 2 ^ (8 * w) /\ lenN vs < 2 ^ 32 - 1 /\ Forall (number_ok ty) vs
  | Text max, Characters l => text l /\ lenN l <= max
  | CountedText w, Characters l => wf_bytes l /\ lenN l < 2 ^ (8 * w)
  | _, _ => False
  end.
(** One number after another; a counter in front; a NUL behind *)
Definition numbers (o : endian) (ty : N) (vs : list N) : list N := flat_map (bytes_of o (N.to_nat (width ty))) vs.
Definition datum_bytes (o : endian) (c : content) (d : datum) : list N :=
  match c, d with
  | Scalar ty _, Value v => bytes_of o (N.to_nat (width ty)) v
  | Scalar ty (Counted w), Values vs => bytes_of o (N.to_nat w) (lenN vs) ++ numbers o ty vs
  | Scalar ty _, Values vs => numbers o ty vs
  | Text _, Characters l => l ++ [0]
  | CountedText w, Characters l => bytes_of o (N.to_nat w) (lenN l) ++ l
  | _, _ => []
  end.
Definition size (c : content) (d : datum) : N := lenN (datum_bytes LE c d).
(** The fields one after another, in the byte orders given *)
Fixpoint wire (os : list endian) (fs : list field) (ds : list datum) : list N :=
  match os, fs, ds with
  | o :: os, f :: fs, d :: ds => datum_bytes o (f_content f) d ++ wire os fs ds
  | _, _, _ => []
  end.

(** ** Conversations *)

(** The host answers the requests of [t] as [t] says, going from state [h] to [h'] *)
Inductive plays {H} (host : H -> request -> H * reply) : H -> list event -> H -> Prop :=
| plays_none h : plays host h [] h
| plays_more h rq r h1 t h' : host h rq = (h1, r) -> plays host h1 t h' -> plays host h ((rq, r) :: t) h'.

Definition value_call (k ty v : N) : request := ask k ty (cvar (width ty) v) (HField ty TNone).
Definition end_call : request := ask 0 0x38 PNone HNote.
(** Arrays of u8 and i8 are offered at once *)
Definition byte_type (ty : N) : Prop := ty = 0x10 \/ ty = 0x14.

(** Encoding: the elements, one call each *)
Inductive gives_each (k ty : N) : list N -> list event -> Prop :=
| each_none : gives_each k ty [] []
| each_more v vs r t : r_ok r = true -> answer (width ty) 0 r = v -> gives_each k ty vs t -> gives_each k ty (v :: vs) ((value_call k ty 0, r) :: t).
(** The elements of an array at byte [pos] of the buffer, which holds [old] from there on *)
Inductive gives_all (k ty pos : N) (old : list N) : list N -> list event -> Prop :=
| all_none : gives_all k ty pos old [] []
| all_singly vs t r : vs <> [] -> ~ byte_type ty -> gives_each k ty vs t -> r_ok r = true ->
    gives_all k ty pos old vs (t ++ [(end_call, r)])
| all_at_once vs r : vs <> [] -> byte_type ty -> r_ok r = true -> r_bytes r = vs ->
    gives_all k ty pos old vs [(ask k 0x39 (PBuf pos (sub old 0 (lenN vs))) (HRaw (lenN vs)), r)]
| all_refused vs r t r' : vs <> [] -> byte_type ty -> r_ok r = false -> r_bytes r = [] -> gives_each k ty vs t -> r_ok r' = true ->
    gives_all k ty pos old vs ((ask k 0x39 (PBuf pos (sub old 0 (lenN vs))) (HRaw (lenN vs)), r) :: t ++ [(end_call, r')]).
(** A field with the name number [k] *)
Inductive gives (k pos : N) (old : list N) : content -> datum -> list event -> Prop :=
| give_one ty v r : r_ok r = true -> answer (width ty) 0 r = v -> gives k pos old (Scalar ty One) (Value v) [(value_call k ty 0, r)]
| give_fixed ty n vs r t : r_ok r = true -> answer 4 n r = n -> gives_all k ty pos old vs t ->
    gives k pos old (Scalar ty (Fixed n)) (Values vs) ((ask k 0x34 (cvar 4 n) HCount, r) :: t)
| give_counted ty w vs r t : r_ok r = true -> answer w 0 r = lenN vs -> gives_all k ty (pos + w) (skipn (N.to_nat w) old) vs t ->
    gives k pos old (Scalar ty (Counted w)) (Values vs) ((ask k (array_op w) (cvar w 0) HCount, r) :: t)
| give_text max l r : r_ok r = true -> r_str r = Some l -> text l ->
    gives k pos old (Text max) (Characters (cut max l)) [(ask k 0x30 PStr (HString 0x30 max), r)]
| give_counted_text w l r : r_ok r = true -> r_str r = Some l -> text l ->
    gives k pos old (CountedText w) (Characters (cut (2 ^ (8 * w) - 1) l)) [(ask k (string_op w) PStr (HString (string_op w) (2 ^ (8 * w) - 1)), r)].
(** The fields in order *)
Inductive gives_fields (id : list N -> N) : N -> list N -> list field -> list datum -> list event -> Prop :=
| gf_none pos old : gives_fields id pos old [] [] []
| gf_more pos old f fs d ds t1 t2 : gives (id (f_name f)) pos old (f_content f) d t1 ->
    gives_fields id (pos + size (f_content f) d) (skipn (N.to_nat (size (f_content f) d)) old) fs ds t2 ->
    gives_fields id pos old (f :: fs) (d :: ds) (t1 ++ t2).

(** Decoding: the host is told, and leaves the message as it is *)
Inductive told_each (k ty : N) : list N -> list event -> Prop :=
| told_none : told_each k ty [] []
| told_more v vs r t : r_ok r = true -> told_each k ty vs t -> told_each k ty (v :: vs) ((value_call k ty v, r) :: t).
Inductive told_all (k ty pos : N) : list N -> list event -> Prop :=
| tall_none : told_all k ty pos [] []
| tall_singly vs t r : vs <> [] -> ~ byte_type ty -> told_each k ty vs t -> r_ok r = true -> told_all k ty pos vs (t ++ [(end_call, r)])
| tall_at_once vs r : vs <> [] -> byte_type ty -> r_ok r = true -> r_bytes r = [] ->
    told_all k ty pos vs [(ask k 0x39 (PBuf pos vs) (HRaw (lenN vs)), r)]
| tall_refused vs r t r' : vs <> [] -> byte_type ty -> r_ok r = false -> r_bytes r = [] -> told_each k ty vs t -> r_ok r' = true ->
    told_all k ty pos vs ((ask k 0x39 (PBuf pos vs) (HRaw (lenN vs)), r) :: t ++ [(end_call, r')]).
Inductive told (k pos : N) : content -> datum -> list event -> Prop :=
| tell_one ty v r : r_ok r = true -> told k pos (Scalar ty One) (Value v) [(value_call k ty v, r)]
| tell_fixed ty n vs r t : r_ok r = true -> answer 4 n r = n -> told_all k ty pos vs t ->
    told k pos (Scalar ty (Fixed n)) (Values vs) ((ask k 0x34 (cvar 4 n) HCount, r) :: t)
| tell_counted ty w vs r t : r_ok r = true -> answer w (lenN vs) r = lenN vs -> told_all k ty (pos + w) vs t ->
    told k pos (Scalar ty (Counted w)) (Values vs) ((ask k (array_op w) (cvar w (lenN vs)) HCount, r) :: t)
| tell_text max l r : r_ok r = true -> r_bytes r = [] ->
    told k pos (Text max) (Characters l) [(ask k 0x30 (PBuf pos l) (HString 0x30 max), r)]
| tell_counted_text w l r : r_ok r = true -> r_bytes r = [] ->
    told k pos (CountedText w) (Characters l) [(ask k (string_op w) (PBuf (pos + w) l) (HString (string_op w) (2 ^ (8 * w) - 1)), r)].
Inductive told_fields (id : list N -> N) : N -> list field -> list datum -> list event -> Prop :=
| tf_none pos : told_fields id pos [] [] []
| tf_more pos f fs d ds t1 t2 : told (id (f_name f)) pos (f_content f) d t1 ->
    told_fields id (pos + size (f_content f) d) fs ds t2 -> told_fields id pos (f :: fs) (d :: ds) (t1 ++ t2).

(** Skipping an empty array looks for its end byte by byte and takes numbers of names for instructions: with more than 52 names
    it can go wrong. *)
Definition skips_well (names : list (list N)) (ds : list datum) : Prop := In (Values []) ds -> lenN names <= 52.
