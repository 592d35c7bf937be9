(** C63: the inspect command. *)
From Coq Require Import Strings.String Sorting.Sorted.
From Verif Require Import Base SpecBytes ModelWord ModelFloat ModelTrans ModelVM SpecVM SpecCrc ModelText SpecText ModelParse ModelSchema
  ModelImage SpecImage LemImage SpecParse LemParse SpecNames SpecPacket LemPacket SpecMessage LemMessage SpecNest LemNest LemNestFile LemNestWire LemNestRun
  SpecParts LemParts LemPartsFile LemPartsWire Samples PropPacket PropNest PropParts ModelInspect SpecInspect LemInspect LemListing LemLossless LemInspectFile ModelTool SpecTool.
Local Open Scope N_scope.

(** ** C63 The inspector shows the program *)

(** The listing of an image is its header, its names in order and one line per instruction, at the instruction's place and with its
    operands.  Full statement: for all programs the compiler writes.  Missing: the instructions the inspector misreads
    ([inspector_reads]); see the refutations.  [rtl]: the order in which C makes calls within an argument list. *)
Theorem C63_listing_partial rtl names p : Forall text names -> lenN names <= 65535 -> 16 + table_bytes names < 2 ^ 31 -> lenN (SpecNames.code p) <= 2 ^ 32 ->
  Forall (well_formed names) p -> Forall (inspector_reads rtl) p ->
  inspect rtl (image names (SpecNames.code p)) =
    Ok (Inspection 1 (Z.of_N (lenN names)) 16 (Z.of_N (16 + table_bytes names)) names (lines_of 0 p)).
Proof. intros T C B L W R. now apply inspect_image. Qed.
Print Assumptions C63_listing_partial.

(** ... and so two images with the same listing are the same, but for the bounds of floating-point ranges, which are not shown. *)
Theorem C63_lossless_partial rtl names p names' p' :
  Forall text names -> lenN names <= 65535 -> 16 + table_bytes names < 2 ^ 31 -> lenN (SpecNames.code p) <= 2 ^ 32 ->
  Forall (well_formed names) p -> Forall (inspector_reads rtl) p -> Forall says_all p ->
  Forall text names' -> lenN names' <= 65535 -> 16 + table_bytes names' < 2 ^ 31 -> lenN (SpecNames.code p') <= 2 ^ 32 ->
  Forall (well_formed names') p' -> Forall (inspector_reads rtl) p' -> Forall says_all p' ->
  inspect rtl (image names (SpecNames.code p)) = inspect rtl (image names' (SpecNames.code p')) -> names = names' /\ p = p'.
Proof.
  intros T C B L W R A T' C' B' L' W' R' A' E. rewrite !inspect_image in E by assumption. injection E as _ _ EN EL. split; [exact EN|]. eapply lines_inj; eauto.
Qed.
Print Assumptions C63_lossless_partial.

(** Opcodes are shown by different names *)
Theorem C63_names a b : a < 256 -> b < 256 -> op_name a = op_name b -> op_name a <> "UNKNOWN"%string -> a = b.
Proof. apply op_name_inj. Qed.
Print Assumptions C63_names.

(** From the source: the inspector shows the compiled packet's instructions, if there are no checksums or they are read in order. *)
Theorem C63_compiled_partial rtl E path k toks : holds_frame E path k toks ->
  Forall (fun n => lenN n <= 255) (frame_all k) -> lenN (frame_all k) <= 65535 -> (rtl = true -> ~ exists ds n, In (Check ds n) (fr_parts k)) ->
  exists im names, (forall fuel, (length toks < fuel)%nat -> compile_file E fuel path = CImage im) /\
    NoDup names /\ (forall s, In s names <-> In s (frame_names k)) /\
    let p := frame_instrs (SpecParse.index_of names) k in im = image names (SpecNames.code p) /\
    (lenN im < 2 ^ 31 -> inspect rtl im = Ok (Inspection 1 (Z.of_N (lenN names)) 16 (Z.of_N (lenN im - lenN (SpecNames.code p))) names (lines_of 0 p))).
Proof.
  intros H LB LN K. apply (frame_inspected rtl E path k toks H LB LN). intros E1. apply Forall_forall. intros x I. destruct x; cbn; auto. apply (K E1). eauto.
Qed.
Print Assumptions C63_compiled_partial.

(** Any file whatever: it is refused if it does not begin like an image; else the listing comes to an end.  Its lines are at increasing
    places of the code from the first byte on, and each names the byte that stands there.  Only a table of names that does not end in
    the file is trouble, and it always is: then the inspector reads past its memory. *)
Theorem C63_any_file rtl data : lenN data <= 2 ^ 32 ->
  (~ is_image data -> inspect rtl data = Ok NoImage) /\
  (is_image data -> ~ table_ends data -> inspect rtl data = Ub UIl) /\
  (is_image data -> table_ends data -> exists strs ls,
    inspect rtl data = Ok (Inspection (Z.of_N (nthN data 5)) (Z.of_N (le_val (sub data 6 2))) (toS 4 (le_val (sub data 8 4))) (toS 4 (le_val (sub data 12 4))) strs ls) /\
    let whole := skipn (N.to_nat (le_val (sub data 12 4))) data in
    (whole <> [] -> exists x r, ls = x :: r /\ l_offset x = 0) /\ Sorted N.lt (map l_offset ls) /\
    Forall (fun x => l_offset x < lenN whole /\ l_op x = nthN whole (l_offset x)) ls).
Proof. exact (inspect_cases rtl data). Qed.
Print Assumptions C63_any_file.

(** As a command of the tool: it never changes a file; it ends with code 0 for an image, with 1 for other files and for none. *)
Theorem C63_command S fuel fs file rest : (forall data, contents S fs file = Some data -> lenN data <= 2 ^ 32) ->
  match contents S fs file with
  | None => main S fuel fs (cmd "inspect" (file :: rest)) = Exits 1 fs []
  | Some data =>
    (~ is_image data -> main S fuel fs (cmd "inspect" (file :: rest)) = Exits 1 fs []) /\
    (is_image data -> table_ends data -> main S fuel fs (cmd "inspect" (file :: rest)) = Exits 0 fs []) /\
    (is_image data -> ~ table_ends data -> main S fuel fs (cmd "inspect" (file :: rest)) = Undefined UIl)
  end.
Proof.
  change (main S fuel fs (cmd "inspect" (file :: rest))) with (cmd_inspect S fs (file :: rest)). unfold cmd_inspect. intros B.
  destruct (contents S fs file) as [data|]; [|reflexivity]. specialize (B data eq_refl). destruct (inspect_cases false data B) as (A1 & A2 & A3).
  split; [intros I; now rewrite A1|]. split; [|intros I T; now rewrite A2]. intros I T. destruct (A3 I T) as (strs & ls & E & _). now rewrite E.
Qed.
Print Assumptions C63_command.

(** The program of a compiled schema is not what the inspector shows *)
Definition misread (rtl : bool) (s : string) (names : list (list N)) (p : list instr) : Prop :=
  compile_file (file s) 100 [] = CImage (image names (SpecNames.code p)) /\ Forall (well_formed names) p /\
  exists a b c d e ls, inspect rtl (image names (SpecNames.code p)) = Ok (Inspection a b c d e ls) /\ ls <> lines_of 0 p.
Ltac wf_instr := repeat apply Forall_cons; try apply Forall_nil; (split; [reflexivity|]; split; [repeat constructor|]; split; [reflexivity|]; split; [reflexivity|]; repeat constructor).
Ltac shows := split; [vm_compute; reflexivity|]; split; [wf_instr|]; eexists _, _, _, _, _, _; split; [vm_compute; reflexivity|]; intros E; vm_compute in E; discriminate E.

(** The width of a bit boolean is shown as an instruction *)
Theorem C63_refuted_bit_bool rtl : exists names p, misread rtl "packet P { bool b : 1; u8 x; }" names p.
Proof.
  exists [chars "b"; chars "x"; chars "P"], [ins 0x07 [2] []; ins 0x22 [0] [1]; ins 0x10 [1] []].
  destruct rtl; shows.
Qed.
Print Assumptions C63_refuted_bit_bool.
(** The name of an array up to the end of the message is shown as instructions *)
Theorem C63_refuted_eof rtl : exists names p, misread rtl "packet P { @eof u8 x[]; }" names p.
Proof.
  exists [chars "x"; chars "P"], [ins 0x07 [1] []; ins 0x3A [0] []; ins 0x10 [0] []; ins 0x38 [] []].
  destruct rtl; shows.
Qed.
Print Assumptions C63_refuted_eof.
(** If arguments are evaluated from the last to the first, a range's bounds change places *)
Theorem C63_refuted_range : exists names p, misread true "packet P { @range(1, 5) u8 x; }" names p.
Proof.
  exists [chars "x"; chars "P"], [ins 0x07 [1] []; ins 0x10 [0] []; ins 0x42 [] [0x10; 1; 5]].
  shows.
Qed.
Print Assumptions C63_refuted_range.
(** The case table of a switch, to which the switch refers, is shown as further instructions *)
Theorem C63_refuted_switch rtl : exists names p tbl, let code := SpecNames.code p in
  compile_file (file "packet P { u8 k; switch (k) { case 1: u8 a; default: u16 b; } }") 100 [] = CImage (image names (code ++ tbl)) /\
  Forall (well_formed names) p /\
  (exists q r, p = q ++ ins 0x51 [0] (le_bytes 4 (lenN (SpecNames.code r))) :: r) /\
  exists a b c d e ls, inspect rtl (image names (code ++ tbl)) = Ok (Inspection a b c d e (lines_of 0 p ++ ls)) /\
    In {| l_offset := lenN code; l_op := 0x01; l_items := [] |} ls.
Proof.
  exists [chars "k"; chars "a"; chars "b"; chars "P"],
    [ins 0x07 [3] []; ins 0x10 [0] []; ins 0x51 [0] [16; 0; 0; 0]; ins 0x10 [1] []; ins 0x52 [] [26; 0; 0; 0]; ins 0x11 [2] []; ins 0x52 [] [18; 0; 0; 0]],
    [1; 0; 8; 0; 0; 0; 1; 0; 0; 0; 0; 0; 0; 0; 0; 0; 0; 0]. cbv zeta.
  split; [vm_compute; reflexivity|]. split; [wf_instr|]. split; [exists [ins 0x07 [3] []; ins 0x10 [0] []], [ins 0x10 [1] []; ins 0x52 [] [26; 0; 0; 0]; ins 0x11 [2] []; ins 0x52 [] [18; 0; 0; 0]]; reflexivity|].
  eexists _, _, _, _, _, (skipn 7 (match inspect rtl (image [chars "k"; chars "a"; chars "b"; chars "P"] (SpecNames.code
    [ins 0x07 [3] []; ins 0x10 [0] []; ins 0x51 [0] [16; 0; 0; 0]; ins 0x10 [1] []; ins 0x52 [] [26; 0; 0; 0]; ins 0x11 [2] []; ins 0x52 [] [18; 0; 0; 0]] ++
    [1; 0; 8; 0; 0; 0; 1; 0; 0; 0; 0; 0; 0; 0; 0; 0; 0; 0])) with Ok (Inspection _ _ _ _ _ l) => l | _ => [] end)).
  destruct rtl; (split; [vm_compute; reflexivity|]; vm_compute; auto).
Qed.
Print Assumptions C63_refuted_switch.
(** A file the runtime loads, and the inspector reads past its end: one name, which is not there *)
Theorem C63_refuted_table rtl : exists data pr, load_il data = Ok (Loaded pr) /\ inspect rtl data = Ub UIl.
Proof.
  exists ([67; 78; 68; 73; 76; 1] ++ le_bytes 2 1 ++ le_bytes 4 16 ++ le_bytes 4 16 ++ [0x26]).
  eexists. split; [vm_compute; reflexivity|]. destruct rtl; vm_compute; reflexivity.
Qed.
Print Assumptions C63_refuted_table.

(** A program with all kinds of operands *)
Definition names63 : list (list N) := [chars "alpha"; chars "b"; chars "Msg"].
Definition prog63 : list instr :=
  [ins 0x02 [] []; ins 0x05 [] [3]; ins 0x07 [2] []; ins 0x16 [0] []; ins 0x42 [] (0x16 :: le_bytes 4 (2 ^ 32 - 5) ++ le_bytes 4 70000);
   ins 0x4B [] (0x15 :: le_bytes 2 3 ++ le_bytes 2 1 ++ le_bytes 2 65535 ++ le_bytes 2 300); ins 0x40 [1] [0x11; 0x34; 0x12]; ins 0x45 [] (le_bytes 8 (2 ^ 64 - 1));
   ins 0x4C [] (2 :: le_bytes 8 7 ++ le_bytes 8 9); ins 0x4D [] (1 :: le_bytes 8 1 ++ le_bytes 8 2); ins 0x3B [0; 1] []; ins 0x38 [] [];
   ins 0x44 [] (le_bytes 2 0x1021 ++ le_bytes 2 0xFFFF ++ le_bytes 2 0 ++ [2]); ins 0x50 [] (le_bytes 4 (2 ^ 32 - 9)); ins 0x30 [1] [10; 0]].
Example C63_listing_nonvacuous :
  Forall text names63 /\ lenN names63 <= 65535 /\ 16 + table_bytes names63 < 2 ^ 31 /\ lenN (SpecNames.code prog63) <= 2 ^ 32 /\
  Forall (well_formed names63) prog63 /\ Forall (inspector_reads false) prog63 /\ Forall says_all prog63 /\
  nth 4 (lines_of 0 prog63) {| l_offset := 0; l_op := 0; l_items := [] |} =
    {| l_offset := 9; l_op := 0x42; l_items := [("Type", 22); ("Range", -5); ("to", 70000)]%Z%string |}.
Proof.
  split; [repeat constructor|]. do 3 (split; [vm_compute; congruence|]). split; [wf_instr|].
  assert (G : Forall (fun i => inspector_reads false i /\ says_all i) prog63).
  { unfold inspector_reads, says_all. cbn [prog63]. repeat apply Forall_cons; try apply Forall_nil; cbn [ins opcode args hd app];
      (split; [|first [discriminate|reflexivity]]); (split; [cbn [In]; intuition discriminate|]); (split; [first [reflexivity|intros [X|X]; discriminate X]|]);
      (split; [discriminate|]); (split; [discriminate|]); discriminate. }
  split; [eapply Forall_impl; [|exact G]; cbn; tauto|]. split; [eapply Forall_impl; [|exact G]; cbn; tauto|]. vm_compute. reflexivity.
Qed.
Example C63_compiled_nonvacuous : holds_frame (file src59) [] frame59 (toks_of src59) /\
  Forall (fun n => lenN n <= 255) (frame_all frame59) /\ lenN (frame_all frame59) <= 65535.
Proof. split; [exact C59_compiles_nonvacuous|]. split; [vm_compute; repeat constructor; congruence|vm_compute; congruence]. Qed.
Example C63_any_file_nonvacuous : exists data, is_image data /\ table_ends data /\ 16 < lenN data /\ le_val (sub data 6 2) = 3.
Proof.
  exists (image names63 (SpecNames.code prog63)). split; [split; [vm_compute; congruence|reflexivity]|]. split; [intros _; vm_compute; congruence|]. split; [vm_compute; congruence|]. reflexivity.
Qed.
