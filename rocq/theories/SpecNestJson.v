(** JSON documents for schemas with structures. *)
From Verif Require Import Base SpecBytes SpecVM ModelVM SpecPacket SpecMessage ModelJson SpecJson SpecNest.

(** ** Documents *)

(** [presents m t j]: the JSON value [j] presents the value [t] of the member [m].  Plain fields as in [shows]; a structure is an object
    that has every member, perhaps in another order and with others besides; several are an array of objects.  No two names of an
    object may differ in case only. *)
Inductive presents : member -> tree -> json -> Prop :=
| pres_flat f d j : shows (f_content f) d j -> presents (Flat f) (Datum d) j
| pres_one os n b g j : object b g j -> presents (Nest os One n b) (Groups [g]) j
| pres_many os x n b gs l : x <> One -> objects b gs l -> presents (Nest os x n b) (Groups gs) (JArr l)
with object : list member -> list tree -> json -> Prop :=
| object_of b g l : NoDup (map (fun m => fold_case (fst m)) l) -> has b g l -> object b g (JObj l)
with objects : list member -> list (list tree) -> list json -> Prop :=
| objects_none b : objects b [] []
| objects_more b g gs j l : object b g j -> objects b gs l -> objects b (g :: gs) (j :: l)
with has : list member -> list tree -> list (list N * json) -> Prop :=
| has_none l : has [] [] l
| has_more m b t ts v l : In (member_name m, v) l -> presents m t v -> has b ts l -> has (m :: b) (t :: ts) l.

(** [prints m t j]: the same, with exactly the members, in order *)
Inductive prints : member -> tree -> json -> Prop :=
| prints_flat f d j : shows (f_content f) d j -> prints (Flat f) (Datum d) j
| prints_one os n b g l : prints_members b g l -> prints (Nest os One n b) (Groups [g]) (JObj l)
| prints_many os x n b gs l : x <> One -> prints_groups b gs l -> prints (Nest os x n b) (Groups gs) (JArr l)
with prints_groups : list member -> list (list tree) -> list json -> Prop :=
| prints_no_group b : prints_groups b [] []
| prints_group b g gs l r : prints_members b g l -> prints_groups b gs r -> prints_groups b (g :: gs) (JObj l :: r)
with prints_members : list member -> list tree -> list (list N * json) -> Prop :=
| prints_none : prints_members [] [] []
| prints_more m b t ts j l : prints m t j -> prints_members b ts l -> prints_members (m :: b) (t :: ts) ((member_name m, j) :: l).

(** ** What the tool manages *)
Section Along.
  Context {A B : Type} (f : A -> B -> endian -> Prop) (f' : A -> B -> endian -> endian) (g : B -> endian -> Prop) (g' : B -> endian -> endian).
  Fixpoint along (l : list B) (o : endian) : Prop := match l with [] => True | b :: l => g b o /\ along l (g' b o) end.
  Fixpoint along2 (k : list A) (l : list B) (o : endian) : Prop :=
    match k, l with
    | a :: k, b :: l => f a b o /\ along2 k l (f' a b o)
    | _, _ => True
    end.
End Along.
(** Plain fields as in [managed], in the byte order at hand; no empty arrays *)
Fixpoint tree_managed (m : member) (t : tree) (o : endian) : Prop :=
  match m, t with
  | Flat f, Datum d => managed (if f_big f then BE else o) (f_content f) d
  | Nest os _ _ b, Groups gs => gs <> [] /\
      along (fun g => along2 tree_managed (fun m t o => snd (member_bytes m t o)) b g) (fun g o => snd (members_bytes b g o)) gs (if last os false then BE else o)
  | _, _ => True
  end.
Definition members_managed : list member -> list tree -> endian -> Prop := along2 tree_managed (fun m t o => snd (member_bytes m t o)).
(** Structures within structures *)
Fixpoint nesting (m : member) : N :=
  match m with Flat _ => 0 | Nest _ _ _ b => 1 + fold_right N.max 0 (map nesting b) end.
(** No two members of the packet, or of one structure, have names that differ in case only *)
Fixpoint distinct (m : member) : Prop :=
  match m with Flat _ => True | Nest _ _ _ b => NoDup (map (fun m => fold_case (member_name m)) b) /\ every distinct b end.
Definition all_distinct (b : list member) : Prop := NoDup (map (fun m => fold_case (member_name m)) b) /\ every distinct b.
