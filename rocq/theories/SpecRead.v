(** Reading bytes that anybody may have sent: what a schema's decoder is expected to make of them. *)
From Verif Require Import Base SpecBytes SpecVM ModelVM SpecPacket SpecMessage SpecNest.

(** A host that only listens: it accepts everything and changes nothing *)
Definition listens {H} (host : H -> request -> H * reply) : Prop :=
  forall h rq, let r := snd (host h rq) in r_ok r = true /\ r_val r = None /\ r_bytes r = [].

(** Schemas read without ambiguity: no NUL-terminated strings, counters of arrays of one or two bytes, and arrays that can be empty only
    where skipping them goes well (see [tree_skips]) *)
Definition bounded (x : extent) : Prop := match x with One => True | Fixed n => n < 2 ^ 32 - 1 | Counted w => w <= 2 end.
Definition may_be_empty (x : extent) : Prop := match x with One => False | Fixed n => n = 0 | Counted _ => True end.
Fixpoint definite (names : N) (m : member) : Prop :=
  match m with
  | Flat f => match f_content f with
    | Scalar _ x => bounded x /\ (may_be_empty x -> names <= 52)
    | Text _ => False
    | CountedText _ => True
    end
  | Nest _ x _ b => bounded x /\ (may_be_empty x -> names <= 52 /\ every quiet_member b) /\ every (definite names) b
  end.

(** Bytes that are the beginning of a message and need more to be one; bytes that no continuation makes begin with a message *)
Definition incomplete (k : schema) (data : list N) : Prop :=
  exists more ts, more <> [] /\ every2 tree_ok (sc_members k) ts /\ data ++ more = message k ts.
Definition malformed (k : schema) (data : list N) : Prop :=
  forall more ts rest, every2 tree_ok (sc_members k) ts -> data ++ more <> message k ts ++ rest.
