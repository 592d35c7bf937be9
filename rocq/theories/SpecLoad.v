(** The names of a compiled program. *)
From Verif Require Import Base SpecBytes.

Definition letter (c : N) : Prop := 65 <= c <= 90 \/ 97 <= c <= 122 \/ c = 95.
Definition digit (c : N) : Prop := 48 <= c <= 57.
(** An identifier: a letter or underscore, then letters, digits and underscores *)
Definition identifier (s : list N) : Prop :=
  exists c r, s = c :: r /\ letter c /\ Forall (fun x => letter x \/ digit x) r.
(** A qualified name: as an identifier, with dots among the later characters *)
Definition qualified (s : list N) : Prop :=
  exists c r, s = c :: r /\ letter c /\ Forall (fun x => letter x \/ digit x \/ x = 46) r.
