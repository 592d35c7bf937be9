(** C42, C43: what the compiler does to the names of a program. *)
From Coq Require Import Strings.String.
From Verif Require Import Base ModelText ModelNames SpecBytes SpecVM SpecNames LemNames LemKept.

(** C42: removing unused names leaves every instruction referring to the same name, keeps exactly the
    names referred to, once each, and changes nothing else: opcodes, other operands and order.
    For all programs made of instructions the optimiser reads as written ([optimiser_reads] in SpecNames).
    Missing: EMIT, polynomial and spline transforms, pushed constants not below 256 or equal to 19, 23
    or 25, and the tables of switches.  The refutations below show these are lost indeed. *)
Theorem C42_renaming_partial names p :
  names <> [] -> Forall text names -> lenN names <= 65536 -> Forall (well_formed names) p -> Forall optimiser_reads p ->
  exists names' p', optimize_strings names (code p) = Some (names', code p') /\
    Forall2 (same_instr names names') p p' /\ NoDup names' /\ (forall s, In s names' <-> referenced names p s).
Proof. intros. now apply optimize_spec. Qed.
Print Assumptions C42_renaming_partial.

Definition at1 op k : instr := {| opcode := op; refs := [k]; args := [] |}.
Definition bare op a : instr := {| opcode := op; refs := []; args := a |}.
Definition names42 : list (list N) := map chars ["Old"; "P"; "a"; "unused"; "b"; "c"]%string.
Definition prog42 : list instr :=
  [at1 0x07 1; at1 0x03 4; at1 0x10 2; bare 0x42 [0x10; 1; 9]; bare 0x4B [0x11; 2; 0; 1; 0; 2; 0]; bare 0x04 [];
   {| opcode := 0x40; refs := [5]; args := [0x12; 7; 0; 0; 0] |}; {| opcode := 0x3B; refs := [4; 2]; args := [] |};
   {| opcode := 0x22; refs := [5]; args := [1] |}; bare 0x38 []; at1 0x60 2; bare 0x61 [24; 0; 0; 0; 0; 0; 0; 0]; bare 0x69 []].

Ltac fits := repeat (apply Forall_cons; [split; [reflexivity|split; [repeat constructor; lia|split; [reflexivity|split; [reflexivity|repeat constructor]]]]|]); apply Forall_nil.
Example C42_nonvacuous : names42 <> [] /\ Forall text names42 /\ lenN names42 <= 65536 /\
  Forall (well_formed names42) prog42 /\ Forall optimiser_reads prog42 /\
  option_map fst (optimize_strings names42 (code prog42)) = Some (map chars ["P"; "a"; "b"; "c"]%string).
Proof.
  split; [discriminate|]. split; [repeat constructor; lia|]. split; [vm_compute; discriminate|]. split; [fits|].
  split; [|vm_compute; reflexivity].
  repeat (apply Forall_cons; [split; [vm_compute; intuition discriminate|split; [discriminate|]]|]); try apply Forall_nil.
  all: try discriminate. intros _. exists 24. split; [lia|]. split; [vm_compute; intuition discriminate|reflexivity].
Qed.

(** What is left open above is settled when no name is lost, whatever the program holds: if every name of the
    table is still in the new one, the table and the program are unchanged.  No premise restricts the program, so
    this covers EMIT, large constants and the tables of switches, as long as the names survive. *)
Theorem C42_nothing_lost names bc names' bc' :
  Forall text names -> NoDup names -> lenN names <= 65536 -> wf_bytes bc ->
  optimize_strings names bc = Some (names', bc') -> (forall s, In s names -> In s names') ->
  names' = names /\ bc' = bc.
Proof. intros F ND L WB E I. exact (nothing_lost _ _ _ _ F ND L WB E I). Qed.
Print Assumptions C42_nothing_lost.

(** a computed field and a switch with a table: 300 is pushed, EMIT is there, and a, b and P are all kept *)
Definition names42k : list (list N) := map chars ["P"; "a"; "b"]%string.
Definition code42k : list N :=
  [0x07; 0; 0; 0x10; 1; 0; 0x61; 0x2C; 1; 0; 0; 0; 0; 0; 0; 0x64; 0x78; 2; 0; 0x65; 0x11;
   0x51; 1; 0; 8; 0; 0; 0; 0x10; 2; 0; 0x52; 18; 0; 0; 0; 1; 0; 26; 0; 0; 0; 7; 0; 0; 0; 0; 0; 0; 0; 0; 0; 0; 0].
Example C42_nothing_lost_nonvacuous : Forall text names42k /\ NoDup names42k /\ lenN names42k <= 65536 /\ wf_bytes code42k /\
  optimize_strings names42k code42k = Some (names42k, code42k).
Proof.
  split; [repeat constructor; lia|]. split; [|split; [vm_compute; discriminate|split; [repeat constructor; lia|vm_compute; reflexivity]]].
  unfold names42k. repeat constructor; cbn; intuition discriminate.
Qed.

(** The optimiser changes what a program refers to, or something else in it *)
Definition spoilt (names : list (list N)) (p : list instr) : Prop :=
  Forall (well_formed names) p /\ exists names' bc', optimize_strings names (code p) = Some (names', bc') /\
    forall p', bc' = code p' -> ~ Forall2 (same_instr names names') p p'.

Ltac small := repeat constructor; vm_compute; reflexivity.
Ltac shape := repeat (apply Forall2_cons; [repeat split; reflexivity|]); apply Forall2_nil.

(** packet P { u8 a; @expr(a + 1) u8 b; u8 c; } : the field after the computed one loses its name *)
Definition names_emit := map chars ["P"; "a"; "b"; "c"]%string.
Definition prog_emit : list instr :=
  [at1 0x07 0; at1 0x10 1; at1 0x60 1; bare 0x61 [1; 0; 0; 0; 0; 0; 0; 0]; bare 0x72 []; bare 0x64 []; at1 0x78 2; bare 0x65 [0x10]; at1 0x10 3].
Theorem C42_refuted_emit : exists names p, spoilt names p.
Proof.
  exists names_emit, prog_emit. split; [fits|]. eexists (map chars ["P"; "a"; "b"]%string), (code prog_emit).
  split; [vm_compute; reflexivity|].
  apply only_reading; [shape|small|vm_compute; discriminate|].
  intros F. do 8 (inversion F as [|? ? ? ? _ F']; subst; clear F; rename F' into F).
  inversion F as [|? ? ? ? (_ & _ & H) _]; subst. inversion H as [|? ? ? ? (_ & H2 & _) _]; subst. vm_compute in H2. discriminate.
Qed.
Print Assumptions C42_refuted_emit.

(** 19 == a : the pushed 19 is taken for a 64-bit type and hides the reference after it *)
Definition names_push := map chars ["P"; "unused"; "a"]%string.
Definition prog_push : list instr :=
  [at1 0x07 0; bare 0x61 [19; 0; 0; 0; 0; 0; 0; 0]; at1 0x60 2; bare 0x69 []].
Theorem C42_refuted_push : exists names p, spoilt names p.
Proof.
  exists names_push, prog_push. split; [fits|]. eexists (map chars ["P"]%string), (code prog_push).
  split; [vm_compute; reflexivity|].
  apply only_reading; [shape|small|vm_compute; discriminate|].
  intros F. do 2 (inversion F as [|? ? ? ? _ F']; subst; clear F; rename F' into F).
  inversion F as [|? ? ? ? (_ & _ & H) _]; subst. inversion H as [|? ? ? ? (_ & H2 & _) _]; subst. vm_compute in H2. discriminate.
Qed.
Print Assumptions C42_refuted_push.

(** A coefficient of a polynomial transform is taken for instructions, and rewritten *)
Definition names_poly := map chars ["unused"; "a"]%string.
Theorem C42_refuted_poly : exists names p p', Forall (well_formed names) p /\
  optimize_strings names (code p) = Some ([chars "a"], code p') /\ Forall2 (fun i j => opcode i = opcode j) p p' /\
  map args p <> map args p'.
Proof.
  exists names_poly, [bare 0x4C [1; 0x01; 0x10; 1; 0; 0; 0; 0; 0x3F]; at1 0x10 1], [bare 0x4C [1; 0x01; 0x10; 0; 0; 0; 0; 0; 0x3F]; at1 0x10 0].
  split; [fits|]. split; [vm_compute; reflexivity|]. split; [repeat constructor|vm_compute; discriminate].
Qed.
Print Assumptions C42_refuted_poly.

(** The bytes of a switch table are taken for instructions, and rewritten: here the only entry of a table,
    [case 272] at offset 0, becomes [case 16]. *)
Theorem C42_refuted_switch : exists names p table table', Forall (well_formed names) p /\
  table = le_bytes 8 272 ++ le_bytes 4 0 /\ optimize_strings names (code p ++ table) = Some ([chars "a"], code (map (renamed [0; 0]) p) ++ table') /\
  table' = le_bytes 8 16 ++ le_bytes 4 0.
Proof.
  exists (map chars ["unused"; "a"]%string), [at1 0x10 1], (le_bytes 8 272 ++ le_bytes 4 0), (le_bytes 8 16 ++ le_bytes 4 0).
  split; [fits|]. split; [reflexivity|]. split; [vm_compute; reflexivity|reflexivity].
Qed.
Print Assumptions C42_refuted_switch.

(** C43: in the code of a structure used as a field, every name n becomes "field.n"; the other operands, the
    opcodes, their order and the names already there are unchanged.
    For all structures made of instructions the copier reads as written ([copier_reads] in SpecNames), with
    qualified names below 512 characters.  Missing: constants, ranges, enums, checksums, transforms, optional
    marks, arrays counted by another field; see the refutations. *)
Theorem C43_prefix_partial names prefix p out :
  text prefix -> Forall text names -> NoDup names -> lenN names + lenN p <= 65536 ->
  Forall (well_formed names) p -> Forall copier_reads p ->
  (forall i k, In i p -> In k (refs i) -> lenN prefix + 1 + lenN (nth (N.to_nat k) names []) < 512) ->
  exists names' p', append_with_prefix (length (code p)) (code p) prefix names out = Some (Ok (names', out ++ code p')) /\
    (exists more, names' = names ++ more) /\ Forall2 (prefixed_instr names names' prefix) p p'.
Proof.
  intros TP T ND L W R FIT.
  destruct (prefix_code names prefix p TP W R FIT names [] out _ (eq_sym (app_nil_r _)) T ND L (Nat.le_refl _))
    as (names' & p' & A & B & _ & _ & _ & C). eauto 10.
Qed.
Print Assumptions C43_prefix_partial.

Definition names43 := map chars ["x"; "flags"; "Inner"]%string.
Definition prog43 : list instr :=
  [at1 0x10 0; {| opcode := 0x20; refs := [1]; args := [3] |}; {| opcode := 0x22; refs := [1]; args := [1] |};
   at1 0x03 2; {| opcode := 0x34; refs := [0]; args := [4; 0; 0; 0] |}; bare 0x38 []; bare 0x04 [];
   at1 0x60 0; bare 0x61 [1; 2; 3; 4; 5; 6; 7; 8]; bare 0x6B []; bare 0x50 [3; 0; 0; 0]].
Example C43_nonvacuous : text (chars "pos") /\ Forall text names43 /\ NoDup names43 /\ lenN names43 + lenN prog43 <= 65536 /\
  Forall (well_formed names43) prog43 /\ Forall copier_reads prog43 /\
  append_with_prefix (length (code prog43)) (code prog43) (chars "pos") names43 [255] =
    Some (Ok (names43 ++ map chars ["pos.x"; "pos.flags"; "pos.Inner"]%string, 255 ::
      code (map (fun i => {| opcode := opcode i; refs := map (fun k => k + 3) (refs i); args := args i |}) prog43))).
Proof.
  split; [repeat constructor|]. split; [repeat constructor|].
  split; [repeat (constructor; [vm_compute; intuition discriminate|]); constructor|].
  split; [vm_compute; discriminate|]. split; [fits|]. split; [|vm_compute; reflexivity].
  repeat (apply Forall_cons; [split; [vm_compute; tauto|]|]); try apply Forall_nil; try discriminate. intros _. left. reflexivity.
Qed.

(** A field with a range, then another field: the second keeps its bare name. *)
Theorem C43_refuted_range : exists names prefix p names' p' i k, Forall (well_formed names) p /\
  append_with_prefix (length (code p)) (code p) prefix names [] = Some (Ok (names', code p')) /\
  nth_error p' 2 = Some i /\ refs i = [k] /\ nth (N.to_nat k) names' [] = chars "y".
Proof.
  exists (map chars ["x"; "y"]%string), (chars "pos"), [at1 0x10 0; bare 0x42 [0x10; 0; 9]; at1 0x10 1],
    (map chars ["x"; "y"; "pos.x"]%string), [at1 0x10 2; bare 0x42 [0x10; 0; 9]; at1 0x10 1], (at1 0x10 1), 1.
  split; [fits|]. repeat split.
Qed.
Print Assumptions C43_refuted_range.
(** An array counted by a field of the same structure: the count is looked up under the bare name. *)
Theorem C43_refuted_count : exists names prefix p names' p' i k k', Forall (well_formed names) p /\
  append_with_prefix (length (code p)) (code p) prefix names [] = Some (Ok (names', code p')) /\
  nth_error p' 1 = Some i /\ refs i = [k; k'] /\ nth (N.to_nat k) names' [] = chars "pos.y" /\ nth (N.to_nat k') names' [] = chars "x".
Proof.
  exists (map chars ["x"; "y"]%string), (chars "pos"), [at1 0x10 0; {| opcode := 0x3B; refs := [1; 0]; args := [] |}],
    (map chars ["x"; "y"; "pos.x"; "pos.y"]%string), [at1 0x10 2; {| opcode := 0x3B; refs := [3; 0]; args := [] |}],
    {| opcode := 0x3B; refs := [3; 0]; args := [] |}, 3, 0.
  split; [fits|]. repeat split.
Qed.
Print Assumptions C43_refuted_count.
(** A qualified name of 512 characters or more: undefined behaviour. *)
Theorem C43_refuted_long : exists names prefix p, Forall text names /\ text prefix /\ Forall (well_formed names) p /\ Forall copier_reads p /\
  append_with_prefix (length (code p)) (code p) prefix names [] = Some (Ub UData).
Proof.
  exists [repeat 97 300], (repeat 98 300), [at1 0x10 0]. split; [repeat constructor|]. split; [repeat constructor|].
  split; [fits|]. split; [|vm_compute; reflexivity]. 
  apply Forall_cons; [split; [vm_compute; tauto|discriminate]|apply Forall_nil].
Qed.
Print Assumptions C43_refuted_long.
