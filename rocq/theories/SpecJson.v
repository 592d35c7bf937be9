(** JSON documents for packets of plain fields. *)
From Coq Require Import Reals.
From Verif Require Import Base SpecBytes ModelFloat SpecReal ModelVM SpecVM SpecPacket SpecMessage ModelJson.

(** The sign of a floating-point pattern *)
Definition negative (f : fmt) (x : N) : bool := N.odd (x / 2 ^ (f_mw f + f_ew f)).
(** The JSON value [j] shows the number [v] of type [ty]: booleans as true and false, the others as a double of the same value *)
Definition shows_number (ty v : N) (j : json) : Prop :=
  if ty =? 0x1A then j = JBool (v =? 1)
  else exists d, j = JNum d /\ d < 2 ^ 64 /\ finite F64 d /\
    (if ty =? 0x18 then finite F32 v /\ real F64 d = real F32 v /\ negative F64 d = negative F32 v
     else if ty =? 0x19 then d = v
     else real F64 d = IZR (number (width ty) (type_signed ty) v)).
Definition shows (c : content) (d : datum) (j : json) : Prop :=
  match c, d with
  | Scalar ty One, Value v => shows_number ty v j
  | Scalar ty _, Values vs => exists l, j = JArr l /\ Forall2 (shows_number ty) vs l
  | _, Characters l => j = JStr l
  | _, _ => False
  end.
(** A document that has every field: the fields' values under their names, perhaps in another order and with other members
    besides. No two of its names may differ in case only. *)
Definition fold_case (l : list N) : list N := map (fun c => if (65 <=? c) && (c <=? 90) then c + 32 else c) l.
Definition describes (fs : list field) (ds : list datum) (j : json) : Prop :=
  exists l, j = JObj l /\ NoDup (map (fun m => fold_case (fst m)) l) /\
    Forall2 (fun f d => exists v, In (f_name f, v) l /\ shows (f_content f) d v) fs ds.
(** The members of the document with exactly the fields, in order *)
Inductive document : list field -> list datum -> list (list N * json) -> Prop :=
| doc_none : document [] [] []
| doc_more f fs d ds j l : shows (f_content f) d j -> document fs ds l -> document (f :: fs) (d :: ds) ((f_name f, j) :: l).

(** What the tool manages: 32-bit unsigned numbers below 2^31, 64-bit numbers up to 2^53, finite floating-point numbers; *)
Definition number_managed (ty v : N) : Prop :=
  match ty with
  | 0x12 => v < 2 ^ 31
  | 0x13 | 0x17 => (Z.abs (number 8 (type_signed ty) v) <= 2 ^ 53)%Z
  | 0x18 => finite F32 v
  | 0x19 => finite F64 v
  | _ => True
  end.
(** arrays that are not empty and not of u8 or i8; strings without NUL, no big-endian strings with a 32-bit length *)
Definition managed (o : endian) (c : content) (d : datum) : Prop :=
  match c, d with
  | Scalar ty _, Value v => number_managed ty v
  | Scalar ty _, Values vs => vs <> [] /\ ~ byte_type ty /\ Forall (number_managed ty) vs
  | CountedText w, Characters l => text l /\ (w = 4 -> o = LE)
  | _, _ => True
  end.
Fixpoint all_managed (os : list endian) (fs : list field) (ds : list datum) : Prop :=
  match os, fs, ds with
  | o :: os, f :: fs, d :: ds => managed o (f_content f) d /\ all_managed os fs ds
  | _, _, _ => True
  end.
