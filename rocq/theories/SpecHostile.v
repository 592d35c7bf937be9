(** Which packets are safe to decode whatever arrives. *)
From Verif Require Import Base SpecBytes SpecNames SpecPacket SpecMessage SpecNest SpecParts.

(** No padding among the bit fields *)
Definition without_padding (k : frame) : Prop := forall l w, In (Bits l) (fr_parts k) -> ~ In (Pad w) l.
(** No arrays, in structures neither *)
Definition arrayless_content (c : content) : Prop := match c with Scalar _ (Fixed _) | Scalar _ (Counted _) => False | _ => True end.
Fixpoint arrayless (m : member) : Prop :=
  match m with
  | Flat f => arrayless_content (f_content f)
  | Nest _ x _ b => x = One /\ every arrayless b
  end.
Definition without_arrays (k : frame) : Prop := forall m, In (Member m) (fr_parts k) -> arrayless m.
(** Few names, and no number in the schema that is written with a byte 0x38 (the mark of the end of an array) *)
Definition few_marks (k : frame) : Prop :=
  lenN (frame_names k) <= 56 /\ forall id i, In i (frame_instrs id k) -> ~ In 0x38 (args i).
(** The same for packets with counted arrays and arrays up to the end of the message *)
From Verif Require SpecArrays.
Definition few_list_marks (k : SpecArrays.lists) : Prop :=
  lenN (SpecArrays.ls_names k) <= 56 /\ forall id i, In i (SpecArrays.lists_instrs id k) -> ~ In 0x38 (args i).
