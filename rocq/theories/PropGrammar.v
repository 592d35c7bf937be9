(** C56: only well-formed schemas are accepted. *)
From Coq Require Import Strings.String.
From Verif Require Import Base ModelWord ModelTrans ModelVM SpecVM ModelText SpecText ModelParse ModelSchema ModelImage SpecParse SpecPacket SpecMessage SpecSource
  SpecGrammar LemGrammarFile PropEnds.

(** A file the compiler makes an image of is a schema of the language of SpecGrammar, with the files it imports: statements and
    definitions have the form they should have, every type named is basic or defined before, no structure contains itself, no name
    is defined twice, no label and no enumeration value occurs twice, constants fit their types, limits are in order, checksums
    have the type they need, transforms and widths stand only where they can, and one packet is defined. *)
Theorem C56_accepted_schema : forall E path fuel im,
  (forall s, text (e_canon E s)) -> compile_file E fuel path = CImage im -> schema E (e_canon E path).
Proof. exact accepted. Qed.
Print Assumptions C56_accepted_schema.

(** Names in a schema: fields of a structure or packet, whatever blocks they stand in; members and values of an enumeration;
    structures and enumerations; files. *)
Theorem C56_distinct_names :
  (forall c ws fields, block c [] ws fields -> NoDup fields) /\
  (forall next ws l, members [] next ws l -> NoDup (map fst l) /\ NoDup (map snd l)) /\
  (forall E path ws k, file E path (start_known path) ws k ->
     NoDup (k_structs k) /\ NoDup (map m_name (k_enums k)) /\ (forall n, In n (k_structs k) -> ~ In n (map m_name (k_enums k))) /\ NoDup (k_files k)).
Proof.
  split; [|split].
  - intros c ws fields B. eapply fields_distinct; eauto using NoDup_nil.
  - intros next ws l M. eapply members_distinct; eauto; apply NoDup_nil.
  - intros E path ws k F. eapply (names_distinct E path); [exact F|]. repeat split; cbn; auto using NoDup_nil. repeat constructor; auto.
Qed.
Print Assumptions C56_distinct_names.

(** Two files with most of the language; the same with one thing wrong each time *)
Definition types : string :=
"/// shared types
enum Mode : u8 { Idle, Run = 4, Stop }
@unaligned_bytes struct Bits { u8 a : 3; i8 b : 5; }
@version(2) struct Point { @range(0, 100) u16 x; @mul(3) i32 y; }".
Definition sensor (fields : string) : string := String.append "@import(""types.cnd"") packet Sensor { Mode mode; " (String.append fields " }").
Definition project (fields : string) : env := {|
  e_strtod := fun _ => 0;
  e_read := fun q =>
    if same_text q (chars "lib/types.cnd") then Some (chars types)
    else if same_text q (chars "lib/sensor.cnd") then Some (chars (sensor fields)) else None;
  e_canon := fun q => if forallb (fun b => (0 <? b) && (b <? 256)) q then q else [] |}.
Definition answer (fields : string) : bool :=
  match compile_file (project fields) 200 (chars "lib/sensor.cnd") with CImage _ => true | _ => false end.
Example C56_nonvacuous :
  (forall s, text (e_canon (project "") s)) /\
  map answer
    ["Point at; Point path[] prefix u8; Bits bits;";
     "switch (mode) { case Mode.Run: { u8 speed; } case 7: u8 seven; default: string why until 0 max 20; }";
     "if (mode == 4 && 1 < 2) { u8 n; @count(n) u16 list[]; } else { @const(0xBEEF) u16 tag; }";
     "@fill";
     "@expr(mode * 2 + 1) u8 next; @crc(16) u16 sum;"]%string = [true; true; true; true; true] /\
  map answer
    ["Pint at;"; "u8 mode;"; "switch (mode) { case 1: { u8 a; } case 2: { u8 a; } }"; "switch (mode) { case Mode.Run: u8 a; case 4: u8 b; }";
     "switch (mode) { case Mode.Walk: u8 a; }"; "@const(300) u8 a;"; "@range(9, 3) u8 a;"; "@crc(16) u32 a;"; "@mul(2) string a;"; "u8 a prefix u8;";
     "f32 a : 3;"; "string a[4];"; "u8 a"; "if (mode) u8 a;"; "u8 self;"]%string = repeat false 15.
Proof.
  split; [|split; vm_compute; reflexivity].
  intros q. cbn [project e_canon]. destruct (forallb _ q) eqn:F; [|constructor].
  apply Forall_forall. intros b I. apply (proj1 (forallb_forall _ _) F) in I.
  apply andb_true_iff in I. destruct I as (A & B). apply N.ltb_lt in A, B. now split.
Qed.
