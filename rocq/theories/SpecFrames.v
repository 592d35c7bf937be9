(** Reading bytes that anybody may have sent, with a packet that has bit fields, checksums and converted numbers: what is expected. *)
From Verif Require Import Base SpecBytes SpecVM ModelVM SpecPacket SpecMessage SpecNest SpecRead SpecParts.

(** ** Packets read without ambiguity *)

(** A run of bit fields without padding that fills whole bytes *)
Definition bit_width (b : bitpart) : N := match b with Bit _ w _ => w | Pad w => w | Fill _ => 0 end.
Definition run_width (l : list bitpart) : N := fold_right (fun b a => bit_width b + a) 0 l.
Definition is_bit (b : bitpart) : Prop := match b with Bit _ _ _ => True | _ => False end.
(** Numbers that are always there, and all of whose patterns can be shown *)
Definition shown_always (ds : list numdec) (ty : N) : Prop :=
  ~ In NOptional ds /\ forall raw, number_ok ty raw -> exists v, reports (u_conv (num_of ds)) ty raw v.
Definition part_definite (names : N) (p : part) : Prop :=
  match p with
  | Member m => definite names m
  | Bits l => Forall is_bit l /\ run_width l mod 8 = 0
  | Check _ _ => True
  | Numeric ds ty _ => shown_always ds ty
  end.
(** A part that takes a byte at least, and is no run of bit fields *)
Definition solid (p : part) : Prop :=
  match p with Member m => forall t o, tree_ok m t -> fst (member_bytes m t o) <> [] | Bits _ => False | Check _ _ => True | Numeric _ _ _ => True end.
(** Such a part follows each run of bit fields *)
Fixpoint settled (ps : list part) : Prop :=
  match ps with
  | [] => True
  | Bits _ :: r => match r with [] => False | p :: _ => solid p end /\ settled r
  | _ :: r => settled r
  end.

(** ** What bytes are *)

(** Bytes that begin with a message; bytes that are the beginning of a message and need more to be one; bytes that no continuation
    makes begin with a message *)
Definition frame_complete (k : frame) (data : list N) : Prop :=
  exists gs rest, Forall2 part_ok (fr_parts k) gs /\ data = frame_bytes k gs ++ rest.
Definition frame_incomplete (k : frame) (data : list N) : Prop :=
  exists more gs, more <> [] /\ Forall2 part_ok (fr_parts k) gs /\ data ++ more = frame_bytes k gs.
Definition frame_malformed (k : frame) (data : list N) : Prop :=
  forall more gs rest, Forall2 part_ok (fr_parts k) gs -> data ++ more <> frame_bytes k gs ++ rest.
(** Bytes that begin like a message up to a checksum, in whose place something else is found *)
Definition damaged (before : list N) (ps : list part) (o : endian) (data : list N) : Prop :=
  exists ps1 ds n ps2 gs, ps = ps1 ++ Check ds n :: ps2 /\ Forall2 part_ok ps1 gs /\
    let (body, o') := parts_bytes before ps1 gs o in
    exists stored rest, data = body ++ stored ++ rest /\ lenN stored = crc_width (crc_of ds) /\
      stored <> fst (part_bytes (before ++ body) (Check ds n) Auto o').
(** Bytes that begin like a message and end inside a checksum, or right before it *)
Definition broken_off (before : list N) (ps : list part) (o : endian) (data : list N) : Prop :=
  exists ps1 ds n ps2 gs, ps = ps1 ++ Check ds n :: ps2 /\ Forall2 part_ok ps1 gs /\
    exists stored, data = fst (parts_bytes before ps1 gs o) ++ stored /\ lenN stored < crc_width (crc_of ds).
