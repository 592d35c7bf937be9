(** Specification: fields added to a packet, and numbers converted on their way. *)
From Verif Require Import Base SpecBytes ModelTrans ModelVM SpecVM SpecParse SpecPacket SpecMessage SpecParts.

(** A number among the parts: its decorators, type and name *)
Record numfield := { nf_decs : list numdec; nf_type : N; nf_name : list N }.
Definition number_part (f : numfield) : part := Numeric (nf_decs f) (nf_type f) (nf_name f).
Definition conv_of (f : numfield) : conversion := u_conv (num_of (nf_decs f)).

(** ** Packets that grow *)

(** Marked optional, and not converted *)
Definition addition (f : numfield) : Prop := In NOptional (nf_decs f) /\ conv_of f = CSame.
(** [new] is [old] with numbers added at the end *)
Definition extends (old new : frame) (fs : list numfield) : Prop :=
  fr_structs new = fr_structs old /\ fr_orders new = fr_orders old /\ fr_parts new = fr_parts old ++ map number_part fs /\ Forall addition fs.
(** The caller is told of each that there is none *)
Fixpoint told_missing (id : list N -> N) (fs : list numfield) (rs : list reply) : list event :=
  match fs, rs with
  | f :: fs, r :: rs => (ask (id (nf_name f)) (nf_type f) (cvar (width (nf_type f)) 0) (HMissing (nf_type f)), r) :: told_missing id fs rs
  | _, _ => []
  end.

(** ** Converted numbers *)

(** The number that goes on the wire for the number [x] *)
Definition wire_number (c : conversion) (x : Z) : Z :=
  match c with CAdd z => (x - z)%Z | CSub z => (x + z)%Z | CMul z => (x / z)%Z | CDiv z => (x * z)%Z | _ => x end.
(** It is one of the field's type (and of 64 bits with a sign), and nothing is lost *)
Definition storable (f : numfield) (v : N) : Prop :=
  let c := conv_of f in let ty := nf_type f in let x := number 8 true v in
  match c with
  | CSame => number_ok ty v
  | CLinear _ _ => False
  | _ => v < 2 ^ 64 /\ (least ty <= wire_number c x <= greatest ty)%Z /\ small64 (wire_number c x) /\
         match c with CMul z => z <> 0%Z /\ Z.divide z x | CDiv z => z <> 0%Z | _ => True end
  end.
Definition number_call (id : list N -> N) (f : numfield) (v : N) : request :=
  let c := conv_of f in let ty := nf_type f in ask (id (nf_name f)) (shown_type c ty) (cvar (shown_size c ty) v) (HField ty (trans_of c)).
(** An encoder asks for every number, and is answered by [vs]; a decoder shows [vs] *)
Inductive numbers_said (m : mode) (id : list N -> N) : list numfield -> list N -> list event -> Prop :=
| ns_none : numbers_said m id [] [] []
| ns_more f v r fs vs t : r_ok r = true -> (m = Enc -> answer (shown_size (conv_of f) (nf_type f)) 0 r = v) -> numbers_said m id fs vs t ->
    numbers_said m id (f :: fs) (v :: vs) ((number_call id f (match m with Enc => 0 | Dec => v end), r) :: t).
Definition total (fs : list numfield) : N := fold_right N.add 0 (map (fun f => width (nf_type f)) fs).
