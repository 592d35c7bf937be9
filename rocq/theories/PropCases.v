(** C43, refuted for switches: the table of cases inside a structure that is used as a field. *)
From Coq Require Import Strings.String.
From Verif Require Import Base ModelWord ModelTrans ModelVM SpecVM ModelText SpecText ModelParse ModelSchema ModelImage SpecImage LemImage SpecBytes Samples PropPacket.
Local Open Scope N_scope.

Definition choices : string := "struct S { u8 k; switch (k) { case 1: u8 a; case 2: u8 b; case 3: u16 c; } } ".
(** The bytes of the table of cases are read as instructions when the structure is used as a field, and changed: for a value without a case the
    field of the first case is asked for and written.  The structure as a whole packet does nothing then. *)
Theorem C43_refuted_switch : exists structure,
  encoded (chars (structure ++ "packet P = S;")) [9; 9; 5] 8 = Some ([9; 0; 0; 0; 0; 0; 0; 0], 8, 2) /\
  encoded (chars (structure ++ "packet P { S s; }")) [0; 9; 9; 5; 0; 0; 0] 8 = Some ([9; 5; 0; 0; 0; 0; 0; 0], 16, 5).
Proof. exists choices. split; vm_compute; reflexivity. Qed.
Print Assumptions C43_refuted_switch.
(** With a case for the value, the field of the case is written *)
Example C43_switch_nonvacuous :
  encoded (chars (choices ++ "packet P = S;")) [1; 1; 5] 8 = Some ([1; 5; 0; 0; 0; 0; 0; 0], 16, 3).
Proof. vm_compute. reflexivity. Qed.
