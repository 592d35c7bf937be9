(** C58: JSON documents with structures through the command line tool. *)
From Coq Require Import Strings.String.
From Verif Require Import Base SpecBytes SpecVM ModelWord ModelVM ModelTrans ModelFloat SpecReal ModelText SpecText ModelParse ModelSchema ModelImage SpecImage SpecParse SpecPacket SpecMessage
  Samples ModelJson SpecJson LemJnum SpecNest LemNestRun SpecNestJson LemNestCli PropPacket PropNest PropJson.

(** ** C58 JSON documents with structures *)

(** Full property: for every schema and every JSON document with the values of its fields, the tool's encode command writes the
    message of those values, and its decode command gives from the message a document with the same values.

    Proved for schemas of structures and a packet of plain fields, structures, and arrays of structures, to any depth up to the
    limits: names up to 255 characters, arrays eight deep, structures 31 deep, messages of at most 1024 bytes when encoding, and
    for the values that [number_managed], [managed] and [tree_managed] list. In a document an object may have its members in any
    order, among others. Missing: the rest of the language; for the other values see the refutations here and those of C51. *)
Theorem C58_round_trip_partial : forall E path k toks, holds_schema E path k toks ->
  Forall (fun n => lenN n <= 255) (all_names k) -> lenN (all_names k) <= 65535 -> 16 + table_bytes (schema_names k) < 2 ^ 32 ->
  fold_right N.max 0 (map depth (sc_members k)) <= 8 -> fold_right N.max 0 (map nesting (sc_members k)) <= 31 ->
  exists im, (forall fuel, (length toks < fuel)%nat -> compile_file E fuel path = CImage im) /\
  (lenN im < 2 ^ 62 -> forall lm ts, every2 tree_ok (sc_members k) ts -> members_managed (sc_members k) ts (schema_order k) ->
   let msg := message k ts in
   (forall doc, object (sc_members k) ts doc -> lenN msg <= 1024 -> exists n, forall fuel, (n <= fuel)%nat -> cli_encode lm fuel im doc = Exit0 msg) /\
   exists n out, prints_members (sc_members k) ts out /\ forall fuel, (n <= fuel)%nat -> cli_decode lm fuel im msg = Exit0 (JObj out)).
Proof. exact nested_round_trip. Qed.
Print Assumptions C58_round_trip_partial.

(** What decoding printed, encoded again, is the message: where no two members of the packet or of one structure have names that
    differ in case only. *)
Theorem C58_back_partial : forall E path k toks, holds_schema E path k toks ->
  Forall (fun n => lenN n <= 255) (all_names k) -> lenN (all_names k) <= 65535 -> 16 + table_bytes (schema_names k) < 2 ^ 32 ->
  fold_right N.max 0 (map depth (sc_members k)) <= 8 -> fold_right N.max 0 (map nesting (sc_members k)) <= 31 -> all_distinct (sc_members k) ->
  exists im, (forall fuel, (length toks < fuel)%nat -> compile_file E fuel path = CImage im) /\
  (lenN im < 2 ^ 62 -> forall lm ts, every2 tree_ok (sc_members k) ts -> members_managed (sc_members k) ts (schema_order k) -> lenN (message k ts) <= 1024 ->
   exists n doc, forall fuel, (n <= fuel)%nat -> cli_decode lm fuel im (message k ts) = Exit0 doc /\ cli_encode lm fuel im doc = Exit0 (message k ts)).
Proof.
  intros E path k toks HS LB LN TB DP NS AD. destruct (nested_round_trip E path k toks HS LB LN TB DP NS) as (im & C & RT). exists im. split; [exact C|].
  intros IL lm ts TO M LM. destruct (RT IL lm ts TO M) as (EN & n & out & PR & D). destruct (EN (JObj out) (printed_object _ _ _ AD PR) LM) as (n' & EN').
  exists (max n n'), (JObj out). intros fuel F. split; [apply D|apply EN']; Lia.lia.
Qed.
Print Assumptions C58_back_partial.

(** *** Where it fails *)

(** Structures 32 deep, in the image that C57 gives for them: the callback writes past its stack of 32 objects, encoding and
    decoding. With 31 it does not. *)
Fixpoint tower (n : nat) : member := match n with O => Flat (plain49 [] (Scalar 0x10 One) "s") | S n => Nest [] One (chars "s") [tower n] end.
Definition tower_image (n : nat) : list N :=
  let k := {| sc_structs := []; sc_orders := []; sc_name := chars "P"; sc_members := [tower n] |} in
  image (schema_names k) (SpecNames.code (schema_instrs (SpecParse.index_of (schema_names k)) k)).
Fixpoint boxes (n : nat) (j : json) : json := match n with O => j | S n => obj [("s"%string, boxes n j)] end.
Theorem C58_refuted_32_deep : nesting (tower 31) = 31 /\ nesting (tower 32) = 32 /\
  cli_encode lm0 600 (tower_image 31) (boxes 32 (num 7)) = Exit0 [7] /\ cli_decode lm0 600 (tower_image 31) [7] = Exit0 (boxes 32 (num 7)) /\
  cli_encode lm0 600 (tower_image 32) (boxes 33 (num 7)) = Wrong UStack /\ cli_decode lm0 600 (tower_image 32) [7] = Wrong UStack.
Proof. repeat split; vm_compute; reflexivity. Qed.
Print Assumptions C58_refuted_32_deep.
(** After an empty array of structures the next fields are looked for in the array, and put there. *)
Definition src58e : string := "struct S { u8 v; } packet P { S xs[] prefix u8; u8 b; }".
Theorem C58_refuted_empty_array :
  encoded51 src58e (obj [("xs", JArr []); ("b", num 7)]%string) = Some (Exit0 [0; 0]) /\
  decoded51 src58e [0; 7] = Some (Exit0 (obj [("xs", JArr [num 7])]%string)).
Proof. split; vm_compute; reflexivity. Qed.
Print Assumptions C58_refuted_empty_array.
(** A structure inside an element of an array whose own array is missing from the document, or empty: its end is not announced, so that
    the end of the outer array closes the inner one, and what follows the outer array is looked for in it. *)
Definition src58m : string := "struct S { u16 v[] prefix u8; } packet P { S xs[] prefix u8; u8 b; }".
Theorem C58_refuted_empty_inside :
  encoded51 src58m (obj [("xs", JArr [obj [("v", JArr [num 1])]]); ("b", num 7)]%string) = Some (Exit0 [1; 1; 1; 0; 7]) /\
  encoded51 src58m (obj [("xs", JArr [obj [("v", JArr [])]]); ("b", num 7)]%string) = Some (Exit0 [1; 0; 0]).
Proof. split; vm_compute; reflexivity. Qed.
Print Assumptions C58_refuted_empty_inside.

(** *** An instance: the schema of C57 *)
Definition trees58 : list tree :=
  [one 0x102; Groups [[one 1; Groups [[one 0x304; one 0x506]; [one 7; one 8]]]];
   Groups [[one 2; Groups [[one 65535; one 1]]]; [one 3; Groups [[one 9; one 10]]]]; Groups [[one 5; one 6]]; Groups [[one 11; one 12]]].
Definition msg58 : list N :=
  [1; 2] ++ [1; 2; 3; 4; 5; 6; 7; 0; 0; 8] ++ [2; 1; 255; 255; 0; 1; 3; 1; 9; 0; 0; 10] ++ [1; 0; 5; 0; 0; 6] ++ [0; 11; 0; 12].
Definition point58 (x y : Z) : json := obj [("x", num x); ("y", num y)]%string.
Definition path58 (k : Z) (l : list json) : json := obj [("kind", num k); ("pts", JArr l)]%string.
(** Other orders, other members besides *)
Definition doc58 : json := obj [("last", obj [("y", num 12); ("z", JNull); ("x", num 11)]); ("note", JStr []); ("a", path58 1 [point58 772 1286; obj [("y", num 8); ("x", num 7)]]);
  ("none", JArr [point58 5 6]); ("b", JArr [path58 2 [point58 (-1) 1]; path58 3 [point58 9 10]]); ("id", num 258)]%string.
Definition out58 : json := obj [("id", num 258); ("a", path58 1 [point58 772 1286; point58 7 8]); ("b", JArr [path58 2 [point58 (-1) 1]; path58 3 [point58 9 10]]);
  ("none", JArr [point58 5 6]); ("last", point58 11 12)]%string.
Example C58_nonvacuous : encoded51 src57 doc58 = Some (Exit0 msg58) /\ decoded51 src57 msg58 = Some (Exit0 out58) /\ encoded51 src57 out58 = Some (Exit0 msg58).
Proof. split; [|split]; vm_compute; reflexivity. Qed.
Ltac in_there := lazymatch goal with |- In _ _ => first [left; reflexivity|right; in_there] end.
Ltac shown N :=
  lazymatch goal with
  | |- object _ _ _ => apply object_of; [vm_compute; repeat constructor; cbn; intuition discriminate|]
  | |- objects _ [] _ => apply objects_none
  | |- objects _ _ _ => eapply objects_more
  | |- has [] _ _ => apply has_none
  | |- has _ _ _ => eapply has_more; [in_there| |]
  | |- presents (Flat _) _ _ => apply pres_flat; apply N; [discriminate|discriminate|discriminate|vm_compute; discriminate|reflexivity]
  | |- presents (Nest _ One _ _) _ _ => apply pres_one
  | |- presents (Nest _ _ _ _) _ _ => apply pres_many; [discriminate|]
  end.
Example C58_nonvacuous_values : message schema57 trees58 = msg58 /\ every2 tree_ok (sc_members schema57) trees58 /\ members_managed (sc_members schema57) trees58 (schema_order schema57) /\
  fold_right N.max 0 (map nesting (sc_members schema57)) = 2 /\ all_distinct (sc_members schema57) /\ object (sc_members schema57) trees58 doc58.
Proof.
  assert (N : forall ty v z, ty <> 0x1A -> ty <> 0x18 -> ty <> 0x19 -> (Z.abs z <= 2 ^ 53)%Z -> number (width ty) (type_signed ty) v = z -> shows_number ty v (num z)).
  { intros ty v z A B C Z0 E. unfold shows_number. destruct (N.eqb_spec ty 0x1A); [contradiction|]. exists (f_of_Z F64 z). destruct (of_Z_exact z Z0) as (F & R & L).
    split; [reflexivity|]. split; [exact L|]. split; [exact F|]. destruct (N.eqb_spec ty 0x18); [contradiction|]. destruct (N.eqb_spec ty 0x19); [contradiction|]. now rewrite E. }
  split; [vm_compute; reflexivity|]. split; [vm_compute; intuition|]. split; [vm_compute; intuition discriminate|]. split; [vm_compute; reflexivity|].
  split; [vm_compute; intuition; repeat constructor; cbn; intuition discriminate|].
  unfold doc58, trees58, one. cbn [sc_members schema57]. unfold path57, point57, plain49. repeat shown N.
Qed.
