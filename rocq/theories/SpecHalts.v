(** Which packets come to an end whatever arrives. *)
From Verif Require Import Base SpecBytes SpecNames SpecPacket SpecMessage SpecNest SpecParts SpecHostile.

(** The first thing in a member is a number or a string, perhaps inside structures *)
Fixpoint starts_with_field (m : member) : Prop :=
  match m with
  | Flat f => arrayless_content (f_content f)
  | Nest _ x _ b => x = One /\ match b with [] => False | a :: _ => starts_with_field a end
  end.
(** In every array of structures, that holds of the structure: no element is empty *)
Fixpoint repeats_fields (m : member) : Prop :=
  match m with
  | Flat _ => True
  | Nest _ x _ b => (x <> One -> match b with [] => False | a :: _ => starts_with_field a end) /\ every repeats_fields b
  end.
Definition no_empty_elements (k : frame) : Prop := forall m, In (Member m) (fr_parts k) -> repeats_fields m.
Definition without_optional (k : frame) : Prop := forall ds ty n, In (Numeric ds ty n) (fr_parts k) -> ~ In NOptional ds.
