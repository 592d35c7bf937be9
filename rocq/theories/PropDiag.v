(** C71: the editor shows errors in a schema exactly when the compiler refuses it. *)
From Coq Require Import Strings.String.
From Verif Require Import Base ModelWord ModelTrans ModelVM SpecVM ModelText SpecText ModelParse ModelSchema ModelImage ModelDiag LemDiag PropEnds PropGrammar.

(** The server is given the text of the file, and no import leads back to the file: no diagnostics means the compiler makes an image
    of the saved file, and diagnostics mean it refuses the file.  A canonical path is a C string. *)
Theorem C71_editor_and_compiler_agree : forall E fuel in_path src errors opened,
  (forall q, text (e_canon E q)) -> e_read E (e_canon E in_path) = Some src ->
  diagnose E fuel (e_canon E in_path) src = Shown errors opened -> ~ In (e_canon E in_path) opened ->
  match errors with [] => exists im, compile_file E fuel in_path = CImage im | _ :: _ => compile_file E fuel in_path = CRefused end.
Proof. exact agree_file. Qed.
Print Assumptions C71_editor_and_compiler_agree.

(** The analysis ends, whatever the text and however the files import one another, with an answer that more fuel does not change. *)
Theorem C71_analysis_ends : forall E files,
  (forall q, text (e_canon E q)) -> (forall q, e_read E q <> None -> In q files) ->
  forall path src, exists answer n, answer <> SFuel /\ forall fuel, (n <= fuel)%nat -> diagnose E fuel path src = answer.
Proof.
  intros E files CT FI path src. destruct (analyse_ends E files path src CT FI) as (n & X).
  exists (diagnose E n path src), n. split; [apply X; apply PeanoNat.Nat.le_refl|].
  intros fuel L. apply diagnose_mono; [exact L|apply X; apply PeanoNat.Nat.le_refl].
Qed.
Print Assumptions C71_analysis_ends.

(** Two files importing each other: the compiler accepts the first, since it counts the file itself as imported; the server does not,
    reads the file a second time, before the types of the second file are known, and shows errors in it. *)
Theorem C71_refuted_cycle : exists E fuel path src error errors opened im,
  (forall q, text (e_canon E q)) /\ e_canon E path = path /\ e_read E path = Some src /\
  compile_file E fuel path = CImage im /\ diagnose E fuel path src = Shown (error :: errors) opened.
Proof.
  destruct C50_nonvacuous as (CT & _). exists cycle, 60%nat, (chars "a.cnd"). do 5 eexists. split; [exact CT|].
  split; [vm_compute; reflexivity|]. split; [vm_compute; reflexivity|]. split; vm_compute; reflexivity.
Qed.
Print Assumptions C71_refuted_cycle.

(** The project of C56: accepted by both, refused by both *)
Example C71_nonvacuous :
  (forall q, text (e_canon (project "") q)) /\ e_canon (project "") (chars "lib/sensor.cnd") = chars "lib/sensor.cnd" /\
  map (fun fields => diagnose (project fields) 200 (chars "lib/sensor.cnd") (chars (sensor fields)))
    ["Point at; Bits bits;"; "Point at"; "Nowhere at;"]%string =
  [Shown [] [chars "lib/types.cnd"]; Shown [(0, 57)]%Z [chars "lib/types.cnd"]; Shown [(0, 58); (0, 58)]%Z [chars "lib/types.cnd"]] /\
  (exists im, compile_file (project "Point at; Bits bits;") 200 (chars "lib/sensor.cnd") = CImage im) /\
  compile_file (project "Nowhere at;") 200 (chars "lib/sensor.cnd") = CRefused.
Proof.
  split; [exact (proj1 C56_nonvacuous)|]. split; [vm_compute; reflexivity|]. split; [vm_compute; reflexivity|].
  split; [eexists; vm_compute; reflexivity|vm_compute; reflexivity].
Qed.
